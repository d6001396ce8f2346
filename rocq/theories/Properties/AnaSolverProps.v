(** C105: the spectrum found by the maximum-entropy solver. *)
From Coq Require Import Reals Lra Lia List String.
From Verif Require Import Base.PyBase Base.RSum Model.AnaSolver Spec.AnaSolverSpec Proofs.RSumP Proofs.AnaSolverP Proofs.AnaSolverOptP Proofs.AnaSolverMainP Proofs.AnaSolverRepP Proofs.AnaSolverExP.
Import ListNotations.
Local Open Scope R_scope.

(** The weights of the real-frequency mesh are those of the trapezoid rule; on an increasing mesh they are positive and add up to its length. *)
Theorem C105_weights n x : (2 <= n)%nat -> increasing n x ->
  (forall y, rsum n (fun i => dw_of n x i * y i) = integral n x y) /\ (forall i, (i < n)%nat -> 0 < dw_of n x i) /\ rsum n (dw_of n x) = x (n - 1)%nat - x 0%nat.
Proof. intros H I. split; [intros y; symmetry; apply integral_dw|]. split; [intros i Hi; apply dw_pos; assumption|apply dw_total; lia]. Qed.
Print Assumptions C105_weights.

(** The matrix handed to the optimizer is the Jacobian of the function handed to it. *)
Theorem C105_jacobian v u alpha m i : (i < n_sv v)%nat ->
  derivable_pt_lim (fun x => fst (compute_f_J v (set_at u i x) alpha) m) (u i) (snd (compute_f_J v u alpha) m i).
Proof. apply jac. Qed.
Print Assumptions C105_jacobian.

(** That matrix is invertible at every point. *)
Theorem C105_jacobian_injective v u alpha x : sensible (v_setup v) -> 0 < alpha ->
  (forall m, (m < n_sv v)%nat -> rsum (n_sv v) (fun i => snd (compute_f_J v u alpha) m i * x i) = 0) -> forall i, (i < n_sv v)%nat -> x i = 0.
Proof. apply jac_injective. Qed.
Print Assumptions C105_jacobian_injective.

(** A root of the function gives the one and only maximum, over all admissible spectra (non-negative, or of any sign for off-diagonal elements),
    of alpha times the entropy minus half the misfit, with the kernel rebuilt from the kept singular values; it is positive for diagonal elements. *)
Theorem C105_optimum v alpha u : sensible (v_setup v) -> 0 < alpha -> root_of (n_sv v) (compute_f_J v) alpha u ->
  let s := v_setup v in let A := singular_to_realspace v u in
  (forall B, admissible s B ->
     objective s (entropy_of s) (kept_kernel v) alpha B <= objective s (entropy_of s) (kept_kernel v) alpha A /\
     (~ same (s_nw s) B A -> objective s (entropy_of s) (kept_kernel v) alpha B < objective s (entropy_of s) (kept_kernel v) alpha A)) /\
  (s_off s = false -> forall l, (l < s_nw s)%nat -> 0 < A l) /\
  misfit s (kept_kernel v) A <= misfit s (kept_kernel v) (featureless s).
Proof.
  intros OK HA HR s A. split; [intros B HB; apply optimum; assumption|]. split; [|apply better_than_model with alpha; assumption].
  intros F l Hl. destruct OK as (_ & _ & HD & _). unfold A, singular_to_realspace. fold s. rewrite F. apply Rmult_lt_0_compat; [apply HD, Hl|apply exp_pos].
Qed.
Print Assumptions C105_optimum.

(** There is at most one root. *)
Theorem C105_unique_root v alpha u u' : sensible (v_setup v) -> 0 < alpha ->
  root_of (n_sv v) (compute_f_J v) alpha u -> root_of (n_sv v) (compute_f_J v) alpha u' -> same (n_sv v) u u'.
Proof. apply unique_root. Qed.
Print Assumptions C105_unique_root.

(** With the full kernel, no spectrum beats the one found by more than what the dropped part of the kernel contributes. *)
Theorem C105_gap v alpha u : sensible (v_setup v) -> 0 < alpha -> root_of (n_sv v) (compute_f_J v) alpha u ->
  let s := v_setup v in let A := singular_to_realspace v u in
  forall B, admissible s B ->
  objective s (entropy_of s) (s_K s) alpha B <= objective s (entropy_of s) (s_K s) alpha A
    + rsum (s_niw s) (fun k => s_E s k * ((s_data s k - fit_at s (s_K s) A k) * fit_at s (s_K s) (fun l => B l - A l) k
        - (s_data s k - fit_at s (kept_kernel v) A k) * fit_at s (kept_kernel v) (fun l => B l - A l) k)).
Proof. apply gap. Qed.
Print Assumptions C105_gap.

(** What is reported is the entropy, the misfit (with the full kernel), the norm and the functional of the spectrum found; the entropy is never
    positive and vanishes for the featureless spectrum only. *)
Theorem C105_reported newton lm blur v opt alpha ustart r : sensible (v_setup v) -> 0 < alpha -> maxent_optimization newton lm blur v opt alpha ustart = Ok r ->
  let s := v_setup v in let A := singular_to_realspace v (r_u r) in
  r_alpha r = alpha /\ (blur = None -> r_A r = A /\ r_blur r = 0) /\ r_norm r = integral (s_nw s) (s_w s) A /\
  r_entropy r = entropy_of s A /\ r_chi2 r = misfit s (s_K s) A /\ r_Q r = objective s (entropy_of s) (s_K s) alpha A /\
  r_entropy r <= 0 /\ 0 <= r_chi2 r /\ r_Q r <= 0 /\ (r_entropy r = 0 <-> same (s_nw s) A (featureless s)).
Proof.
  intros OK HA H s A. destruct (reported newton lm blur v opt alpha ustart r OK HA H) as (X1 & X2 & X3 & X4 & X5 & X6 & X7 & X8 & X9).
  repeat (split; [assumption|]). rewrite X4. apply entropy_nonpos; [exact OK|]. apply A_admissible, OK.
Qed.
Print Assumptions C105_reported.

(** The optimizer chosen is the one that is asked; an unknown name is refused; a failing optimizer or blurring is passed on. *)
Theorem C105_optimizer newton lm blur v opt alpha ustart :
  match maxent_optimization newton lm blur v opt alpha ustart with
  | Ok r => (opt = "newton" /\ newton (n_sv v) (compute_f_J v) ustart alpha = Ok (r_u r) \/ opt = "scipy_lm" /\ lm (n_sv v) (compute_f_J v) ustart alpha = Ok (r_u r)) /\
      (forall bw f, blur = Some (bw, f) -> f (singular_to_realspace v (r_u r)) = Ok (r_A r) /\ r_blur r = bw)
  | Raise e => opt = "newton" /\ newton (n_sv v) (compute_f_J v) ustart alpha = Raise e \/ opt = "scipy_lm" /\ lm (n_sv v) (compute_f_J v) ustart alpha = Raise e \/
      opt <> "newton" /\ opt <> "scipy_lm" /\ e = ValueError \/ (exists bw f A, blur = Some (bw, f) /\ f A = Raise e)
  end%string.
Proof.
  unfold maxent_optimization. destruct (String.eqb_spec opt "newton") as [->|N1]; [|destruct (String.eqb_spec opt "scipy_lm") as [->|N2]].
  - destruct (newton _ _ _ _) as [u|e] eqn:E; cbn [bind]; [|left; auto]. destruct blur as [[bw f]|]; [|cbn; split; [left; auto|discriminate]].
    destruct (f _) as [A'|e] eqn:Ef; cbn [bind]; [|right; right; right; eauto]. cbn. split; [left; auto|]. intros bw' f' H. injection H as <- <-. auto.
  - destruct (lm _ _ _ _) as [u|e] eqn:E; cbn [bind]; [|right; left; auto]. destruct blur as [[bw f]|]; [|cbn; split; [right; auto|discriminate]].
    destruct (f _) as [A'|e] eqn:Ef; cbn [bind]; [|right; right; right; eauto]. cbn. split; [right; auto|]. intros bw' f' H. injection H as <- <-. auto.
  - cbn. right. right. left. auto.
Qed.
Print Assumptions C105_optimizer.

(** A smaller alpha never fits the data worse and never raises the entropy. *)
Theorem C105_alpha_monotone v a1 a2 u1 u2 : sensible (v_setup v) -> 0 < a2 -> a2 < a1 ->
  root_of (n_sv v) (compute_f_J v) a1 u1 -> root_of (n_sv v) (compute_f_J v) a2 u2 ->
  let s := v_setup v in let A1 := singular_to_realspace v u1 in let A2 := singular_to_realspace v u2 in
  misfit s (kept_kernel v) A2 <= misfit s (kept_kernel v) A1 /\ entropy_of s A2 <= entropy_of s A1.
Proof. apply alpha_monotone. Qed.
Print Assumptions C105_alpha_monotone.

(** Finding: one significant singular value too few is kept.  Exactly [n_sv + 1] singular values exceed the threshold; without any the construction fails. *)
Theorem C105_kept_finding svd s : let '(U, Sg, Vt) := svd (s_niw s) (s_nw s) (s_K s) in
  is_svd (s_niw s) (s_nw s) (s_K s) U Sg Vt ->
  match solver_init svd s with
  | Ok v => v_U v = U /\ v_Xi v = Sg /\ (forall l m, v_V v l m = Vt m l) /\ v_setup v = s /\ (n_sv v < Nat.min (s_nw s) (s_niw s))%nat /\
      (forall i, (i < Nat.min (s_nw s) (s_niw s))%nat -> 1e-10 < Sg i <-> (i < n_sv v + 1)%nat)
  | Raise e => e = IndexError /\ forall i, (i < Nat.min (s_nw s) (s_niw s))%nat -> Sg i <= 1e-10
  end.
Proof.
  destruct (svd _ _ _) as [[U Sg] Vt] eqn:Es. intros (_ & _ & _ & _ & Hd). pose proof (last_above_cases _ Sg Hd) as X. unfold solver_init. rewrite Es.
  destruct (last_above _ _) as [n|e]; cbn [bind]; [|exact X]. destruct X as [X1 X2]. cbn. repeat (split; [reflexivity || assumption|]). intros i Hi. rewrite (X2 i Hi). lia.
Qed.
Print Assumptions C105_kept_finding.

(** Finding: with equal errors, data that differ along the last significant direction give the same roots, hence the same spectrum, for every alpha. *)
Theorem C105_direction_refuted svd s v e c : let '(U, Sg, Vt) := svd (s_niw s) (s_nw s) (s_K s) in
  is_svd (s_niw s) (s_nw s) (s_K s) U Sg Vt -> (forall k, (k < s_niw s)%nat -> s_E s k = e) -> solver_init svd s = Ok v ->
  let s' := shift_data s c U (n_sv v) in
  1e-10 < Sg (n_sv v) /\ (forall k, (k < s_niw s)%nat -> s_data s' k = s_data s k + c * U k (n_sv v)) /\
  exists v', solver_init svd s' = Ok v' /\ n_sv v' = n_sv v /\
    (forall alpha u, root_of (n_sv v) (compute_f_J v') alpha u <-> root_of (n_sv v) (compute_f_J v) alpha u) /\
    (forall u, singular_to_realspace v' u = singular_to_realspace v u).
Proof.
  destruct (svd _ _ _) as [[U Sg] Vt] eqn:Es. intros (_ & Ho & _ & _ & Hd) He Hi s'. pose proof (last_above_cases _ Sg Hd) as X.
  pose proof Hi as Hi'. unfold solver_init in Hi'. rewrite Es in Hi'. destruct (last_above _ _) as [n|] eqn:El; [|discriminate]. cbn [bind] in Hi'. injection Hi' as <-. cbn [n_sv] in *.
  destruct X as [X1 X2]. split; [apply X2; lia|]. split; [intros k Hk; apply shift_data_k, Hk|].
  exists (Solver s' n U Sg (fun l m => Vt m l)). split.
  { unfold solver_init. change (s_niw s') with (s_niw s). change (s_nw s') with (s_nw s). change (s_K s') with (s_K s). rewrite Es, El. reflexivity. }
  split; [reflexivity|]. split; [|intros u; reflexivity].
  intros alpha u. unfold root_of. split; intros H m Hm; specialize (H m Hm); rewrite <- H; [symmetry|]; apply ignored with e; try exact He; specialize (Ho m n ltac:(lia) ltac:(lia)); rewrite Ho; replace (Nat.eqb m n) with false by (symmetry; apply Nat.eqb_neq; lia); reflexivity.
Qed.
Print Assumptions C105_direction_refuted.

(** Refuted: the spectrum found maximises the reported functional.  There are sensible problems in which another non-negative spectrum has a larger value. *)
Theorem C105_maximum_refuted : exists svd s v alpha u B,
  (let '(U, Sg, Vt) := svd (s_niw s) (s_nw s) (s_K s) in is_svd (s_niw s) (s_nw s) (s_K s) U Sg Vt) /\ sensible s /\ s_off s = false /\ solver_init svd s = Ok v /\ 0 < alpha /\
  root_of (n_sv v) (compute_f_J v) alpha u /\ nonneg (s_nw s) B /\
  objective s (entropy_of s) (s_K s) alpha (singular_to_realspace v u) < objective s (entropy_of s) (s_K s) alpha B.
Proof.
  exists ex_svd, (ex_setup 1 1), (ex_solver 1 1), (/ 4), (fun _ => 0), (fun l => if Nat.eqb l 0 then 1 else 2).
  destruct ex_better as (X1 & X2 & X3). split; [apply ex_is_svd|]. split; [apply ex_sensible|]. split; [reflexivity|]. split; [apply ex_init|]. split; [lra|]. split; [exact X1|]. split; [apply X2; reflexivity|exact X3].
Qed.
Print Assumptions C105_maximum_refuted.

(** the hypotheses are met by a problem whose optimum differs from the default model *)
Example C105_ex : exists v, solver_init ex_svd (ex_setup (1 * 1 / 2 + exp 1) 7) = Ok v /\ sensible (v_setup v) /\ root_of (n_sv v) (compute_f_J v) 1 (fun _ => 1) /\
  singular_to_realspace v (fun _ => 1) 0%nat = exp 1.
Proof.
  exists (ex_solver (1 * 1 / 2 + exp 1) 7). split; [apply ex_init|]. split; [apply ex_sensible|]. split; [apply ex_root|].
  unfold singular_to_realspace, singular_to_realspace_diag, Vu, ex_solver, ex_setup, eye. cbn. rewrite Rplus_0_l, !Rmult_1_l. reflexivity.
Qed.
