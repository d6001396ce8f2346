(** A concrete problem with two frequencies and two data points. *)
From Coq Require Import Reals Lra Lia List String Bool.
From Verif Require Import Base.PyBase Base.RSum Model.AnaSolver Spec.AnaSolverSpec Proofs.RSumP Proofs.AnaSolverP Proofs.AnaSolverOptP Proofs.AnaSolverMainP Proofs.AnaSolverRepP.
Import ListNotations.
Local Open Scope R_scope.

Definition ex_sg (i : nat) : R := if Nat.eqb i 0 then 2 else 1.
Definition ex_setup (g1 g2 : R) : setup :=
  Setup 2 2 (fun i => INR i) (fun k l => (if Nat.eqb k l then ex_sg k else 0, 0)) false (fun _ => 1) (fun k => (if Nat.eqb k 0 then g1 else g2, 0)) (fun _ => 1) false.
Definition ex_svd (_ _ : nat) (_ : mat) : mat * vec * mat := (eye, ex_sg, eye).
Definition ex_solver g1 g2 : solver := Solver (ex_setup g1 g2) 1 eye ex_sg (fun l m => eye m l).

Lemma ex_is_svd g1 g2 : let '(U, Sg, Vt) := ex_svd (s_niw (ex_setup g1 g2)) (s_nw (ex_setup g1 g2)) (s_K (ex_setup g1 g2)) in
  is_svd (s_niw (ex_setup g1 g2)) (s_nw (ex_setup g1 g2)) (s_K (ex_setup g1 g2)) U Sg Vt.
Proof.
  cbn. unfold is_svd. cbn [s_niw s_nw ex_setup s_fermi s_nim Nat.min]. split; [|split; [|split; [|split]]].
  - intros k l Hk Hl. unfold s_K, eye, ex_sg. cbn [ex_setup s_fermi s_kernel fst rsum Nat.eqb]. destruct k as [|[|k]]; [| |lia]; (destruct l as [|[|l]]; [| |lia]); cbn; unfold ex_sg; cbn; lra.
  - intros i j Hi Hj. unfold eye. cbn [rsum]. destruct i as [|[|i]]; [| |lia]; (destruct j as [|[|j]]; [| |lia]); cbn; lra.
  - intros i j Hi Hj. unfold eye. cbn [rsum]. destruct i as [|[|i]]; [| |lia]; (destruct j as [|[|j]]; [| |lia]); cbn; lra.
  - intros i Hi. unfold ex_sg. destruct (Nat.eqb i 0); lra.
  - intros i j Hij Hj. unfold ex_sg. destruct i as [|[|i]], j as [|[|j]]; cbn; try lra; lia.
Qed.
Lemma ex_init g1 g2 : solver_init ex_svd (ex_setup g1 g2) = Ok (ex_solver g1 g2).
Proof.
  unfold solver_init, ex_svd. cbn [s_niw s_nw ex_setup s_fermi s_nim Nat.min]. unfold last_above. cbn [seq filter].
  replace (above (ex_sg 0)) with true by (symmetry; apply above_spec; cbn; lra). replace (above (ex_sg 1)) with true by (symmetry; apply above_spec; cbn; lra). reflexivity.
Qed.
Lemma ex_sensible g1 g2 : sensible (ex_setup g1 g2).
Proof.
  split; [cbn; lia|]. split; [intros i Hi; cbn [ex_setup s_nw s_w] in *; rewrite S_INR; lra|]. split; [intros; cbn; lra|].
  intros k Hk. unfold s_E. cbn. lra.
Qed.
Lemma ex_f g1 g2 alpha u m : (m < 1)%nat -> fst (compute_f_J (ex_solver g1 g2) u alpha) m = alpha * u 0%nat + 2 * exp (u 0%nat) - 2 * g1.
Proof.
  intros Hm. assert (m = 0)%nat by lia. subst m. unfold compute_f_J. cbn [ex_solver v_setup ex_setup s_off].
  rewrite f_diag. unfold resid, fit_at, integral, s_E, s_data, kept_kernel, singular_to_realspace_diag, Vu, eye, ex_sg.
  cbn [v_setup ex_solver ex_setup s_niw s_fermi s_nim s_nw n_sv v_U v_Xi v_V rsum s_data_c s_var s_w s_model fst Nat.sub Nat.eqb].
  replace (INR 1 - INR 0) with 1 by (cbn; lra). unfold eye, ex_sg. cbn [Nat.eqb]. replace (0 + 1 * u 0%nat) with (u 0%nat) by ring. lra.
Qed.
Lemma ex_root g2 alpha u0 : root_of 1 (compute_f_J (ex_solver (alpha * u0 / 2 + exp u0) g2)) alpha (fun _ => u0).
Proof. intros m Hm. rewrite ex_f by exact Hm. field. Qed.
(** the data (1, 1) are fitted exactly by (1, 2), the optimizer is satisfied with the default model (1, 1) *)
Lemma ex_better : let v := ex_solver 1 1 in let s := v_setup v in let B := fun l => if Nat.eqb l 0 then 1 else 2 in
  root_of (n_sv v) (compute_f_J v) (/ 4) (fun _ => 0) /\ admissible s B /\
  objective s (entropy_of s) (s_K s) (/ 4) (singular_to_realspace v (fun _ => 0)) < objective s (entropy_of s) (s_K s) (/ 4) B.
Proof.
  intros v s B. split; [|split].
  - pose proof (ex_root 1 (/ 4) 0) as X. rewrite exp_0 in X. replace (/ 4 * 0 / 2 + 1) with 1 in X by field. exact X.
  - intros _ l Hl. unfold B. destruct (Nat.eqb l 0); lra.
  - subst B s v. unfold objective, entropy_of, shannon, misfit, fit_at, integral, singular_to_realspace, singular_to_realspace_diag, Vu, s_K, s_E, s_data.
    cbn [v_setup ex_solver ex_setup s_niw s_fermi s_nim s_nw s_kernel s_off n_sv v_V rsum s_data_c s_var s_w s_model fst Nat.sub Nat.eqb].
    replace (INR 1 - INR 0) with 1 by (cbn; lra). unfold eye, ex_sg. cbn [Nat.eqb]. rewrite !Rmult_0_r, !Rplus_0_l, exp_0.
    replace (1 * 1 / 1) with 1 by field. replace (1 / 1) with 1 by field. replace (2 / 1) with 2 by field. rewrite ln_1.
    assert (L : ln 2 < 1). { rewrite <- (ln_exp 1). apply ln_increasing; [lra|]. pose proof (exp_ineq1 1 ltac:(lra)). lra. }
    lra.
Qed.
