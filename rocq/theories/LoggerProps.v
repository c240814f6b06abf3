(** * C113: log lines arrive where the last call of a logger function says. *)
From Coq Require Import List Bool NArith Arith.
From Verif Require Import Base LoggerModel LoggerSpec.
Import ListNotations.

Section Lines.
Context {line : Type}.

(** What the state says about the past. *)
Definition agrees (past : list (call line)) (s : state line) : Prop :=
  s_log_file s = (if file_open past then Some 0 else None) /\
  s_opened s = (if file_open past then 1 else 0) /\
  s_flags s = snd (belongs past) /\
  s_out s = (if second_choice past then NilFile else fst (belongs past)).
Lemma agrees_step : forall (past : list (call line)) s c, agrees past s ->
  agrees (c :: past) (fst (step s c)) /\
  s_written (fst (step s c)) = s_written s ++ kept past [c] /\
  snd (step s c) = (match c with SetFileTmp ok => ok || file_open past | _ => true end).
Proof.
  intros past s c (A & B & C & D). unfold agrees. destruct c as [|ok|l]; cbn [step].
  - unfold set_stdout, belongs; cbn. rewrite app_nil_r. split; [split; [exact A|split; [exact B|split; reflexivity]]|split; reflexivity].
  - unfold set_file_tmp. rewrite A. unfold belongs. cbn. rewrite app_nil_r. destruct (file_open past) eqn:F.
    + cbn. rewrite orb_true_r. split; [|split; reflexivity].
      split; [destruct ok; reflexivity|]. split; [rewrite B; destruct ok; reflexivity|]. split; reflexivity.
    + rewrite orb_false_r. destruct ok; cbn.
      * rewrite B. split; [split; [reflexivity|split; [reflexivity|split; reflexivity]]|split; reflexivity].
      * unfold belongs in C, D. split; [|split; reflexivity].
        split; [exact A|split; [exact B|split; [exact C|exact D]]].
  - unfold print. rewrite D. cbn [kept]. rewrite app_nil_r. destruct (second_choice past) eqn:K.
    + cbn. rewrite app_nil_r. unfold belongs in *. cbn. rewrite K. split; [|split; reflexivity].
      split; [exact A|split; [exact B|split; [exact C|exact D]]].
    + assert (X : fst (belongs past) <> NilFile) by (unfold belongs; destruct (chosen past) as [[|]|]; discriminate).
      destruct (fst (belongs past)) eqn:E; try congruence; cbn; rewrite C;
        (split; [|split; reflexivity]); (split; [exact A|split; [exact B|split; [reflexivity|]]]);
        rewrite K; exact (eq_sym E).
Qed.
Lemma kept_app : forall (cs past : list (call line)) c, kept past (cs ++ [c]) = kept past cs ++ kept (rev cs ++ past) [c].
Proof.
  induction cs as [|d cs IH]; intros past c; [reflexivity|].
  replace (rev (d :: cs) ++ past) with (rev cs ++ d :: past) by (cbn; now rewrite <- app_assoc).
  change ((d :: cs) ++ [c]) with (d :: (cs ++ [c])).
  destruct d; cbn [kept]; rewrite IH; try reflexivity. now rewrite app_assoc.
Qed.
Lemma agrees_run : forall cs : list (call line), agrees (rev cs) (run cs) /\ s_written (run cs) = kept [] cs.
Proof.
  induction cs as [|c cs IH] using rev_ind; [split; [split; [reflexivity|split; [reflexivity|split; reflexivity]]|reflexivity]|].
  destruct IH as [IH1 IH2]. unfold run in *. rewrite fold_left_app, rev_app_distr. cbn [fold_left rev app].
  destruct (agrees_step _ _ c IH1) as (A & B & _). split; [exact A|]. rewrite B, IH2, kept_app, app_nil_r. reflexivity.
Qed.
End Lines.

(** Exactly what arrives, in its order: the lines that should, without those printed while the last choice is the file and was
    made when the file was open already. *)
Theorem C113_exact : forall (line : Type) (cs : list (call line)), s_written (run cs) = kept [] cs.
Proof. intros line cs. exact (proj2 (agrees_run cs)). Qed.
Print Assumptions C113_exact.
Example C113_exact_applies :
  s_written (run [Print 1; SetFileTmp false; Print 2; SetFileTmp true; Print 3; SetStdout; Print 4; SetFileTmp true; Print 5; SetStdout; Print 6]) =
  [(Stderr, 3%N, 1); (Stderr, 3%N, 2); (File 0, 23%N, 3); (Stdout, 19%N, 4); (Stdout, 19%N, 6)].
Proof. reflexivity. Qed.

(** An error is returned exactly if the file is not open and cannot be opened, and then nothing is changed. *)
Theorem C113_errors : forall (line : Type) (cs : list (call line)) c,
  succeeds cs c = false <-> c = SetFileTmp false /\ file_open (rev cs) = false.
Proof.
  intros line cs c. unfold succeeds. destruct (agrees_run cs) as [A _]. destruct (agrees_step _ _ c A) as (_ & _ & E). rewrite E.
  destruct c as [|[|]|l]; cbn; split; try discriminate; try (intros [H _]; discriminate H).
  - intros H. split; [reflexivity|exact H].
  - intros [_ H]. exact H.
Qed.
Print Assumptions C113_errors.
Theorem C113_error_changes_nothing : forall (line : Type) (cs : list (call line)) c,
  succeeds cs c = false -> run (cs ++ [c]) = run cs.
Proof.
  intros line cs c H. apply C113_errors in H. destruct H as [-> F]. unfold run. rewrite fold_left_app. cbn [fold_left step].
  destruct (agrees_run cs) as ((A & _) & _). unfold run in A. unfold set_file_tmp. rewrite A, F. reflexivity.
Qed.
Print Assumptions C113_error_changes_nothing.
Example C113_errors_apply : succeeds [Print 1; SetStdout] (SetFileTmp false) = false /\ succeeds [SetFileTmp true; Print 1] (SetFileTmp false) = true.
Proof. split; reflexivity. Qed.

(** The file is opened at most once in the life of the process. *)
Theorem C113_opened_once : forall (line : Type) (cs : list (call line)),
  s_opened (run cs) = if file_open (rev cs) then 1 else 0.
Proof. intros line cs. destruct (agrees_run cs) as ((_ & B & _) & _). exact B. Qed.
Print Assumptions C113_opened_once.

(** The log is as it should be if LCSetLoggerFileTmp is not called again after it succeeded. *)
Fixpoint once {line : Type} (cs : list (call line)) (opened : bool) : bool :=
  match cs with
  | [] => true
  | SetFileTmp ok :: cs' => negb opened && once cs' ok
  | _ :: cs' => once cs' opened
  end.
Theorem C113_once_partial : forall (line : Type) (cs : list (call line)), once cs false = true ->
  s_written (run cs) = log_of [] cs.
Proof.
  intros line cs H. rewrite C113_exact.
  assert (G : forall cs past, once cs (file_open past) = true -> second_choice past = false -> kept past cs = log_of (line := line) past cs).
  { clear. induction cs as [|c cs IH]; intros past H K; [reflexivity|]. destruct c as [|ok|l]; cbn [kept log_of once] in *.
    - apply IH; [exact H|reflexivity].
    - apply andb_prop in H. destruct H as [H1 H2]. apply negb_true_iff in H1. apply IH; cbn.
      + rewrite H1. destruct ok; exact H2.
      + rewrite H1. destruct ok; [reflexivity|exact K].
    - rewrite K. cbn. f_equal. apply IH; assumption. }
  apply G; [exact H|reflexivity].
Qed.
Print Assumptions C113_once_partial.
Example C113_once_applies : once [Print 1; SetFileTmp false; SetFileTmp true; Print 2; SetStdout; Print 3] false = true.
Proof. reflexivity. Qed.

(** In general it is not: the second call of LCSetLoggerFileTmp returns no error and all lines after it are lost. *)
Theorem C113_log_refuted : exists cs : list (call nat),
  succeeds [SetFileTmp true; Print 1] (SetFileTmp true) = true /\
  cs = [SetFileTmp true; Print 1; SetFileTmp true; Print 2; Print 3] /\
  s_written (run cs) = [(File 0, 23%N, 1)] /\
  log_of [] cs = [(File 0, 23%N, 1); (File 0, 23%N, 2); (File 0, 23%N, 3)].
Proof. eexists. split; [reflexivity|]. split; [reflexivity|]. split; reflexivity. Qed.
Print Assumptions C113_log_refuted.
(** The file cannot be chosen again after standard output was. *)
Theorem C113_back_to_file_refuted : forall (line : Type) (cs : list (call line)) ok l,
  file_open (rev cs) = true ->
  succeeds cs (SetFileTmp ok) = true /\
  s_written (run (cs ++ [SetFileTmp ok; Print l])) = s_written (run cs) /\
  log_of [] (cs ++ [SetFileTmp ok; Print l]) = log_of [] cs ++ [(File 0, 23%N, l)].
Proof.
  intros line cs ok l F. split; [|split].
  - destruct (succeeds cs (SetFileTmp ok)) eqn:E; [reflexivity|]. apply C113_errors in E. destruct E as [_ E]. congruence.
  - destruct (agrees_run cs) as ((A & _) & _). unfold run in *. rewrite fold_left_app. cbn [fold_left step].
    unfold set_file_tmp. rewrite A, F. reflexivity.
  - assert (G : forall cs past, log_of past (cs ++ [SetFileTmp ok; Print l]) =
                  log_of past cs ++ log_of (rev cs ++ past) [SetFileTmp ok; Print l]).
    { clear. induction cs as [|c cs IH]; intros past; [reflexivity|].
      replace (rev (c :: cs) ++ past) with (rev cs ++ c :: past) by (cbn; now rewrite <- app_assoc).
      change ((c :: cs) ++ [SetFileTmp ok; Print l]) with (c :: (cs ++ [SetFileTmp ok; Print l])).
      destruct c; cbn [log_of]; rewrite IH; reflexivity. }
    rewrite G, app_nil_r. f_equal. cbn [log_of]. unfold belongs. cbn. rewrite F, orb_true_r. reflexivity.
Qed.
Print Assumptions C113_back_to_file_refuted.
Example C113_back_to_file_applies : file_open (rev [SetFileTmp true; Print 1; SetStdout]) = true.
Proof. reflexivity. Qed.
