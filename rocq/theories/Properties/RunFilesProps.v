(** C101: files and MPI operations of a whole run. *)
From Coq Require Import List String Bool Arith Lia.
From Verif Require Import Model.RunFiles Spec.RunFilesSpec Proofs.RunSyncP Proofs.RunFilesP Proofs.RunEndP.
Import ListNotations.
Local Open Scope string_scope.
Local Open Scope list_scope.
Local Open Scope nat_scope.

(** With settings that fit together no rank ever reads a file or a group that is missing, or writes a group that is there, in any interleaving. *)
Theorem C101_no_error : forall fl n j r, fitting fl -> run_of n no_files (dga_prog fl n) j -> r < n -> ~ raises j r.
Proof. intros fl n j r F Hj Hr. now apply (no_raise fl n j r Hj Hr). Qed.
Print Assumptions C101_no_error.
(** ... the run never hangs: while a rank has not ended, some rank can go on ... *)
Theorem C101_no_deadlock : forall fl n j, fitting fl -> run_of n no_files (dga_prog fl n) j -> (forall r, r < n -> finished j r) \/ exists j', step n j j'.
Proof.
  intros fl n j F Hj. destruct (go_on fl n j Hj) as [H|[H|(r & Hr & R)]]; [now left|now right|]. exfalso. now apply (no_raise fl n j r Hj Hr).
Qed.
Print Assumptions C101_no_deadlock.
(** ... and no run has more steps than there are actions: with C101_no_deadlock every run ends with all ranks finished. *)
Theorem C101_terminates : forall fl n k j, run_len n no_files (dga_prog fl n) k j -> k <= total_len n (dga_prog fl n).
Proof. intros fl n k j H. exact (run_len_bound n no_files (dga_prog fl n) k j H). Qed.
Print Assumptions C101_terminates.
Theorem C101_can_finish : forall fl n, fitting fl -> exists j, run_of n no_files (dga_prog fl n) j /\ forall r, r < n -> finished j r.
Proof. intros fl n F. exact (finish fl n 0 _ (len_0 _ _ _) F). Qed.
Print Assumptions C101_can_finish.

(** What is in the output folder once root has ended: everything that was written and not removed; the files read by the Eliashberg and optics parts are
    removed only where the settings say so. *)
Theorem C101_final_files : forall fl n j x, run_of n no_files (dga_prog fl n) j -> 0 < n -> finished j 0 ->
  (j_disk j (RunFile x) <> None <-> In x (written_files fl) /\ ~ In x (removed_files fl)).
Proof. intros fl n j x. apply final_run. Qed.
Print Assumptions C101_final_files.
(** The files of the ranks: one for every rank, with exactly the groups of the requested quantities, if they are to be kept; none otherwise. *)
Theorem C101_rank_files : forall fl n j r, run_of n no_files (dga_prog fl n) j -> (forall q, q < n -> finished j q) ->
  match j_disk j (RankFile r) with
  | None => ~ (r < n /\ keep_rank_files fl = true)
  | Some l => r < n /\ keep_rank_files fl = true /\ forall g, In g l <-> In g (rank_groups fl)
  end.
Proof. intros fl n j r Hj H. apply final_rank; auto. Qed.
Print Assumptions C101_rank_files.

(** Finding: with do_eliash but not do_pairing_vertex, or an optics section without do_bubble, no rank ever ends; root raises (after the expensive part of
    the calculation) and every other rank waits for it in an MPI operation for ever. *)
Theorem C101_unfit_refuted : forall fl n, ~ fitting fl -> 0 < n ->
  (forall j r, run_of n no_files (dga_prog fl n) j -> r < n -> ~ finished j r) /\
  (forall j, run_of n no_files (dga_prog fl n) j -> stuck n j -> raises j 0 /\ forall r, 0 < r < n -> waiting j r).
Proof.
  intros fl n F Hn. split.
  - intros j r Hj Hr. now apply (unfit_never fl n j r Hj F).
  - intros j Hj S. now apply (unfit_stuck fl n j Hj F Hn).
Qed.
Print Assumptions C101_unfit_refuted.

(** * The theorems are about real runs *)
Definition all_on : flags :=
  {| do_pairing := true; do_eliash := true; do_bubble := true; do_vertex := true; save_fq := true; save_vrg := true; verbose := true; poly := true;
     keep_rank_files := false; keep_fq_optics := false; keep_pairing := true; optics_section := true; optics_me := true; me_section := true; me_loc := true;
     me_s := true; me_g := true; me_chi_d := true; me_chi_m := true |}.
Example C101_ex_fitting : fitting all_on. Proof. split; reflexivity. Qed.
Example C101_ex_end : exists j, run_of 3 no_files (dga_prog all_on 3) j /\ (forall r, r < 3 -> finished j r) /\ j_disk j (RunFile "giwk_dga.npy") <> None /\
  j_disk j (RunFile "Optics/F_cond.npy") = None /\ j_disk j (RunFile "Eliashberg/F_sing_pp.npy") <> None /\ j_disk j (RankFile 1) = None.
Proof.
  destruct (C101_can_finish all_on 3 C101_ex_fitting) as (j & Hj & F). exists j. split; [assumption|]. split; [assumption|].
  pose proof (fun x => C101_final_files all_on 3 j x Hj (Nat.lt_0_succ 2) (F 0 (Nat.lt_0_succ 2))) as G. split; [apply G; split; [vm_compute; tauto|intros I; vm_compute in I; intuition discriminate]|].
  split; [|split].
  - destruct (j_disk j (RunFile "Optics/F_cond.npy")) eqn:E; [|reflexivity]. exfalso. destruct (proj1 (G "Optics/F_cond.npy")) as [_ N]; [now rewrite E|]. apply N. vm_compute. tauto.
  - apply G. split; [vm_compute; tauto|intros I; vm_compute in I; intuition discriminate].
  - pose proof (C101_rank_files all_on 3 j 1 Hj F) as R. destruct (j_disk j (RankFile 1)); [|reflexivity]. destruct R as (_ & R & _). discriminate.
Qed.
(** two runs that differ in the order of the ranks *)
Definition tiny : flags :=
  {| do_pairing := false; do_eliash := false; do_bubble := false; do_vertex := false; save_fq := false; save_vrg := false; verbose := false; poly := false;
     keep_rank_files := true; keep_fq_optics := true; keep_pairing := true; optics_section := false; optics_me := false; me_section := false; me_loc := false;
     me_s := false; me_g := false; me_chi_d := false; me_chi_m := false |}.
Example C101_ex_unfit : ~ fitting {| do_pairing := false; do_eliash := true; do_bubble := true; do_vertex := false; save_fq := false; save_vrg := false; verbose := false; poly := false;
     keep_rank_files := true; keep_fq_optics := true; keep_pairing := true; optics_section := false; optics_me := false; me_section := false; me_loc := false;
     me_s := false; me_g := false; me_chi_d := false; me_chi_m := false |}.
Proof. intros [H _]. discriminate (H eq_refl). Qed.
(** root cannot leave the broadcast of the configuration late: a rank waits for it, but root does not wait *)
Example C101_ex_order : (exists j, step 2 (start no_files (dga_prog tiny 2)) j /\ j_todo j 0 <> dga_prog tiny 2 0) /\
  forall j, step 2 (start no_files (dga_prog tiny 2)) j -> j_todo j 1 = dga_prog tiny 2 1 \/ j_todo j 0 = dga_prog tiny 2 0.
Proof.
  split.
  - eexists. split.
    + apply (step_sync 2 _ 0 CBcast (tl (dga_prog tiny 2 0)) (Nat.lt_0_succ 1)); [reflexivity|]. intros q Hq W. cbn [waits] in W. apply Nat.eqb_eq in W. subst q. reflexivity.
    + cbn. discriminate.
  - intros j H. inversion H as [j1 p a l d Hp Ht Hn Hd|j1 p c l Hp Ht Hw]; subst; destruct p as [|p]; cbn; [left|right|left|right]; reflexivity.
Qed.
