(** * Final theorems about what a crash leaves of a file (C122). *)
From Coq Require Import List ZArith Bool Lia Arith.
From Coq Require Import Strings.Byte.
From Verif Require Import Base BaseProofs FsyncModel FsyncSpec FsyncProps.
Import ListNotations.
Local Open Scope nat_scope.

(** The bytes on the disk and all bytes to come are zero. *)
Definition clean (f : file) : Prop := zeros (f_synced f).
Lemma fold_zeros l : forall c, zeros c -> zeros (fold_left apply_change l c).
Proof. induction l as [|ch l IH]; intros c Z; [exact Z|]. cbn [fold_left]. apply IH. now apply apply_zeros_zeros. Qed.
Lemma clean_survives f c : clean f -> survives f c -> zeros c.
Proof. intros Z (l & _ & ->). now apply fold_zeros. Qed.
Lemma step_clean s c name : clean (get_file s name) -> clean (get_file (fst (fs_step s c)) name).
Proof.
  intros Z. destruct (step_file s c name) as (f & -> & [->|[(off & n & ->)|[->|(_ & ->)]]]); try exact Z.
  unfold clean. cbn [f_synced]. now apply fold_zeros.
Qed.
Lemma run_clean name cs : forall s, clean (get_file s name) -> clean (get_file (fst (fs_run s cs)) name).
Proof.
  induction cs as [|c cs IH]; intros s Z; [exact Z|]. cbn [fs_run]. pose proof (step_clean s c name Z) as Z'. destruct (fs_step s c) as [s1 o].
  specialize (IH s1 Z'). destruct (fs_run s1 cs). exact IH.
Qed.

(** Once the file was opened and a Sync has returned, a crash at any later time leaves zero bytes only. *)
Theorem C122_crash_zeros : forall s0 name before i h s' o cs c, Exists (reopens name) before ->
  let s := fst (fs_run s0 before) in
  nth_error (fs_handles s) i = Some h -> h_name h = name -> fs_step s (FSync (Some i) true) = (s', Ok o) ->
  survives (get_file (fst (fs_run s' cs)) name) c -> zeros c.
Proof.
  intros s0 name before i h s' o cs c E s Hi Hn D. apply clean_survives. apply run_clean.
  cbn [fs_step] in D. unfold sync, get_handle in D. rewrite Hi in D. destruct (h_closed h); [discriminate|]. inv D.
  rewrite get_put, name_eqb_refl. unfold clean. cbn [f_synced]. exact (C122_zeros s0 (h_name h) before E).
Qed.
Print Assumptions C122_crash_zeros.

(** Without a Sync after Open anything can be left: exactly as many changes as one likes can be missing, so also the old content. *)
Theorem C122_unsynced : forall s name, survives (get_file (fst (fs_step s (FOpen name true))) name) (f_now (get_file s name)).
Proof.
  intros s name. cbn [fs_step]. unfold open. cbn [fst]. rewrite get_same. unfold change_file. rewrite get_put, name_eqb_refl.
  exists (f_pending (get_file s name)). split; [|reflexivity]. cbn [f_pending].
  induction (f_pending (get_file s name)) as [|x l IH]; [apply sel_skip, sel_nil|]. cbn [app]. now apply sel_take.
Qed.
Print Assumptions C122_unsynced.

(** A file with other content is opened, written and synced, and a crash comes after another Write. *)
Example C122_crash_applies :
  let s0 := Fs (fun _ => Some (File [x01; x02; x03] [])) [] in
  let s := fst (fs_run s0 [FOpen [x61] true; FWrite (Some 0) 2 None]) in
  survives (get_file s [x61]) [x01; x02; x03] /\ survives (get_file s [x61]) [x00; x00; x03] /\
  exists s', fs_step s (FSync (Some 0) true) = (s', Ok None) /\
    survives (get_file (fst (fs_run s' [FWrite (Some 0) 1 None])) [x61]) [x00; x00].
Proof.
  cbv zeta. split; [|split].
  - exists []. split; [|reflexivity]. repeat constructor.
  - exists [Zeros 0 2]. split; [|reflexivity]. cbn. apply sel_skip, sel_take, sel_nil.
  - eexists. split; [reflexivity|]. exists []. split; [|reflexivity]. cbn. apply sel_skip, sel_nil.
Qed.
