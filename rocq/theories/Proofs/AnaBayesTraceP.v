(** Trace, criterion and probability. *)
From Coq Require Import Reals Lra Lia List.
From Verif Require Import Base.PyBase Base.RSum Model.AnaSolver Model.AnaBayes Spec.AnaSolverSpec Spec.AnaBayesSpec Proofs.RSumP Proofs.AnaSolverP Proofs.AnaSolverOptP Proofs.AnaSolverMainP Proofs.AnaSolverRepP Proofs.AnaBayesEigP Proofs.AnaBayesP.
Local Open Scope R_scope.

Section T.
Variable eigvalsh : nat -> mat -> res vec.
Definition eigs (v : solver) (A : vec) : res vec :=
  if s_off (v_setup v) then eigvalsh (s_nw (v_setup v)) (lambda_of v A) else eig_or_diag eigvalsh v (lambda_of v A).
Definition prob_of (v : solver) (lam : vec) (alpha entr chisq : R) : R :=
  exp (alpha * entr - 0.5 * chisq + ln alpha + 0.5 * rsum (s_nw (v_setup v)) (fun i => ln (alpha / (alpha + lam i)))).
Lemma bayes_ok newton lm blur v opt alpha us b : maxent_bayes eigvalsh newton lm blur v opt alpha us = Ok b ->
  maxent_optimization newton lm blur v opt alpha us = Ok (br b) /\
  exists lam, eigs v (singular_to_realspace v (r_u (br b))) = Ok lam /\ br_ng b = n_good (r_entropy (br b)) alpha /\ br_tr b = trace_of v lam alpha /\ br_conv b = ratio (br_tr b) (br_ng b) /\
    br_prob b = if s_off (v_setup v) then None else Some (prob_of v lam alpha (r_entropy (br b)) (r_chi2 (br b))).
Proof.
  unfold maxent_bayes, eigs, lambda_of, prob_of. destruct (maxent_optimization _ _ _ _ _ _ _) as [r|e]; cbn [bind]; [|discriminate].
  destruct (s_off (v_setup v)) eqn:O.
  - unfold bayes_conv_offdiag. destruct (eigvalsh _ _) as [lam|e] eqn:E; cbn [bind]; [|discriminate]. intros H. injection H as <-. cbn [br br_ng br_tr br_conv br_prob].
    split; [reflexivity|]. exists lam. rewrite E. auto.
  - unfold bayes_conv, posterior_probability. destruct (eig_or_diag _ _ _) as [lam|e] eqn:E; cbn [bind]; [|discriminate]. intros H. injection H as <-. cbn [br br_ng br_tr br_conv br_prob].
    split; [reflexivity|]. exists lam. rewrite E. auto.
Qed.
Hypothesis HE : finds_eigenvalues eigvalsh.
Lemma eigs_of v A lam : eigvalsh (s_nw (v_setup v)) (lambda_of v A) = Ok lam -> eigs v A = Ok lam.
Proof. intros H. unfold eigs, eig_or_diag. rewrite H. destruct (s_off (v_setup v)); reflexivity. Qed.
Lemma eigs_nonneg v A lam : sensible (v_setup v) -> eigs v A = Ok lam -> forall i, (i < s_nw (v_setup v))%nat -> 0 <= lam i.
Proof.
  intros OK H i Hi.
  assert (K : eigvalsh (s_nw (v_setup v)) (lambda_of v A) = Ok lam -> 0 <= lam i).
  { intros E. destruct (HE _ _ _ (lambda_sym v A _) E) as (Q & H1 & H2 & H3).
    apply (gram_pos (s_nw (v_setup v)) (s_niw (v_setup v)) (lambda_of v A) Q (b_of v (q_of v A)) lam H1 H2); [|exact Hi]. intros; apply lambda_gram, OK. }
  unfold eigs, eig_or_diag in H. destruct (s_off (v_setup v)); [exact (K H)|].
  destruct (eigvalsh _ _) as [l|[]]; try discriminate; injection H as <-; [apply K; reflexivity|apply lambda_diag_nonneg, OK].
Qed.
Lemma trace_facts v A lam alpha : sensible (v_setup v) -> 0 < alpha -> eigvalsh (s_nw (v_setup v)) (lambda_of v A) = Ok lam ->
  (exists G, share_of (s_nw (v_setup v)) alpha (lambda_of v A) G) /\ (forall G, share_of (s_nw (v_setup v)) alpha (lambda_of v A) G -> trace_of v lam alpha = trace (s_nw (v_setup v)) G) /\
  0 <= trace_of v lam alpha < INR (s_nw (v_setup v)) /\ trace_of v lam alpha <= INR (s_niw (v_setup v)).
Proof.
  intros OK Ha E. pose proof (eigs_nonneg v A lam OK (eigs_of v A lam E)) as P. destruct (HE _ _ _ (lambda_sym v A _) E) as (Q & H1 & H2 & H3). set (n := s_nw (v_setup v)) in *.
  split; [exists (fun_of n Q (fun l => lam l / (alpha + lam l))); apply share_exists; assumption|].
  split; [intros G HG; symmetry; apply (share_trace n (lambda_of v A) Q); assumption|].
  destruct (share_terms n lam alpha Ha P) as [X1 X2]. split; [split; [exact X1|apply X2; unfold n; destruct OK; lia]|].
  apply (gram_trace n (s_niw (v_setup v)) (lambda_of v A) Q (b_of v (q_of v A))); try assumption. intros; apply lambda_gram, OK.
Qed.
Lemma trace_nonneg v lam alpha : 0 < alpha -> (forall i, (i < s_nw (v_setup v))%nat -> 0 <= lam i) -> 0 <= trace_of v lam alpha.
Proof. intros Ha P. apply (share_terms (s_nw (v_setup v)) lam alpha Ha P). Qed.
Lemma trace_unique v A A' lam lam' alpha : sensible (v_setup v) -> 0 < alpha -> same (s_nw (v_setup v)) A A' ->
  eigvalsh (s_nw (v_setup v)) (lambda_of v A) = Ok lam -> eigvalsh (s_nw (v_setup v)) (lambda_of v A') = Ok lam' -> trace_of v lam alpha = trace_of v lam' alpha.
Proof.
  intros OK Ha S E E'. destruct (trace_facts v A lam alpha OK Ha E) as ((G & HG) & X & _). rewrite (X G HG). symmetry.
  apply (trace_facts v A' lam' alpha OK Ha E'). intros i k Hi Hk.
  assert (Eq : forall i j, (i < s_nw (v_setup v))%nat -> (j < s_nw (v_setup v))%nat -> lambda_of v A i j = lambda_of v A' i j).
  { intros a b Hx Hy. rewrite !lambda_q. unfold q_of. rewrite (S a Hx), (S b Hy). reflexivity. }
  rewrite <- Eq by assumption. rewrite <- HG by assumption. apply rsum_ext. intros j Hj. rewrite Eq by assumption. reflexivity.
Qed.
Lemma trace_positive v A lam alpha i : sensible (v_setup v) -> 0 < alpha -> eigs v A = Ok lam -> (i < s_nw (v_setup v))%nat -> 0 < lambda_of v A i i -> 0 < trace_of v lam alpha.
Proof.
  intros OK Ha E Hi P. pose proof (eigs_nonneg v A lam OK E) as N. destruct (trace_nonneg v lam alpha Ha N) as [|Z]; [assumption|exfalso].
  symmetry in Z. unfold trace_of in Z.
  assert (L0 : forall k, (k < s_nw (v_setup v))%nat -> lam k = 0).
  { assert (N' : forall j, (j < s_nw (v_setup v))%nat -> 0 <= lam j / (alpha + lam j)).
    { intros j Hj. specialize (N j Hj). apply Rmult_le_pos; [exact N|apply Rlt_le, Rinv_0_lt_compat; lra]. }
    intros k Hk. pose proof (rsum_zero_inv _ _ N' Z k Hk) as X. specialize (N k Hk).
    cbn beta in X. unfold Rdiv in X. apply Rmult_integral in X. destruct X as [X|X]; [exact X|]. exfalso. assert (0 < / (alpha + lam k)) by (apply Rinv_0_lt_compat; lra). lra. }
  assert (K : eigvalsh (s_nw (v_setup v)) (lambda_of v A) = Ok lam -> False).
  { intros E'. destruct (HE _ _ _ (lambda_sym v A _) E') as (Q & H1 & H2 & H3). rewrite (H1 i i Hi Hi) in P.
    rewrite rsum_zero in P; [lra|]. intros k Hk. rewrite (L0 k Hk). ring. }
  unfold eigs, eig_or_diag in E. destruct (s_off (v_setup v)); [exact (K E)|].
  destruct (eigvalsh _ _) as [l|[]]; try discriminate; injection E as <-; [apply K; reflexivity|]. specialize (L0 i Hi). cbn beta in L0. lra.
Qed.
Lemma trace_antitone v lam a1 a2 : 0 < a1 -> a1 <= a2 -> (forall i, (i < s_nw (v_setup v))%nat -> 0 <= lam i) -> trace_of v lam a2 <= trace_of v lam a1.
Proof.
  intros H1 H2 P. apply rsum_le. intros i Hi. specialize (P i Hi). unfold Rdiv. apply Rmult_le_compat_l; [exact P|]. apply Rinv_le_contravar; lra.
Qed.

(** probability *)
Lemma log_sum n lam alpha : 0 < alpha -> (forall i, (i < n)%nat -> 0 <= lam i) -> rsum n (fun i => ln (alpha / (alpha + lam i))) <= 0 /\
  0 < rprod n (fun i => alpha / (alpha + lam i)) /\ rsum n (fun i => ln (alpha / (alpha + lam i))) = ln (rprod n (fun i => alpha / (alpha + lam i))).
Proof.
  intros Ha. induction n as [|n IH]; intros P; cbn [rsum rprod]; [rewrite ln_1; lra|].
  destruct (IH (fun i Hi => P i (Nat.lt_trans _ _ _ Hi (Nat.lt_succ_diag_r n)))) as (X1 & X2 & X3).
  specialize (P n (Nat.lt_succ_diag_r n)). assert (Y : 0 < alpha / (alpha + lam n)) by (apply Rdiv_lt_0_compat; lra).
  assert (Z : ln (alpha / (alpha + lam n)) <= 0).
  { rewrite <- ln_1. destruct (Req_dec (alpha / (alpha + lam n)) 1) as [->|N]; [lra|]. apply Rlt_le, ln_increasing; [exact Y|].
    assert (alpha / (alpha + lam n) <= 1); [|lra]. apply Rmult_le_reg_r with (alpha + lam n); [lra|]. unfold Rdiv. rewrite Rmult_assoc, Rinv_l by lra. lra. }
  split; [lra|]. split; [apply Rmult_lt_0_compat; assumption|]. rewrite ln_mult by assumption. lra.
Qed.
Lemma prob_facts v lam alpha entr chisq : 0 < alpha -> (forall i, (i < s_nw (v_setup v))%nat -> 0 <= lam i) ->
  let p := prob_of v lam alpha entr chisq in
  p = alpha * exp (alpha * entr - / 2 * chisq) * sqrt (rprod (s_nw (v_setup v)) (fun i => alpha / (alpha + lam i))) /\ 0 < p <= alpha * exp (alpha * entr - / 2 * chisq).
Proof.
  intros Ha P p. destruct (log_sum (s_nw (v_setup v)) lam alpha Ha P) as (X1 & X2 & X3).
  assert (E : p = alpha * exp (alpha * entr - / 2 * chisq) * exp (0.5 * rsum (s_nw (v_setup v)) (fun i => ln (alpha / (alpha + lam i))))).
  { unfold p, prob_of. replace (alpha * entr - 0.5 * chisq + ln alpha + 0.5 * rsum (s_nw (v_setup v)) (fun i => ln (alpha / (alpha + lam i))))
      with (ln alpha + (alpha * entr - / 2 * chisq) + 0.5 * rsum (s_nw (v_setup v)) (fun i => ln (alpha / (alpha + lam i)))) by lra.
    rewrite !exp_plus, exp_ln by exact Ha. reflexivity. }
  assert (S : exp (0.5 * rsum (s_nw (v_setup v)) (fun i => ln (alpha / (alpha + lam i)))) = sqrt (rprod (s_nw (v_setup v)) (fun i => alpha / (alpha + lam i)))).
  { rewrite X3. rewrite <- Rpower_sqrt by exact X2. unfold Rpower. f_equal. lra. }
  split; [rewrite E, S; reflexivity|]. split; [unfold p, prob_of; apply exp_pos|].
  rewrite E. rewrite <- (Rmult_1_r (alpha * exp (alpha * entr - / 2 * chisq))) at 2. apply Rmult_le_compat_l.
  - apply Rmult_le_pos; [lra|apply Rlt_le, exp_pos].
  - rewrite <- exp_0. destruct (Req_dec (rsum (s_nw (v_setup v)) (fun i => ln (alpha / (alpha + lam i)))) 0) as [Z|N]; [rewrite Z, Rmult_0_r; lra|]. apply Rlt_le, exp_increasing. lra.
Qed.
(** slope of the logarithm of the probability *)
Lemma ln_share_deriv lam x : 0 < x -> 0 <= lam -> derivable_pt_lim (fun a => ln (a / (a + lam))) x (lam / (x + lam) / x).
Proof.
  intros Hx Hl.
  replace (lam / (x + lam) / x) with (/ (x / (x + lam)) * ((1 * (x + lam) - (1 + 0) * x) / Rsqr (x + lam))) by (unfold Rsqr; field; lra).
  apply (derivable_pt_lim_comp (fun a => a / (a + lam)) ln).
  - apply (derivable_pt_lim_div (fun a => a) (fun a => a + lam)); [apply derivable_pt_lim_id| |lra].
    apply (derivable_pt_lim_plus (fun a => a) (fun _ => lam)); [apply derivable_pt_lim_id|apply derivable_pt_lim_const].
  - apply derivable_pt_lim_ln. apply Rdiv_lt_0_compat; lra.
Qed.
Lemma prob_slope v lam alpha entr chisq : 0 < alpha -> (forall i, (i < s_nw (v_setup v))%nat -> 0 <= lam i) ->
  derivable_pt_lim (fun a => ln (prob_of v lam a entr chisq)) alpha ((1 + (trace_of v lam alpha - n_good entr alpha) / 2) / alpha).
Proof.
  intros Ha P. unfold prob_of.
  apply (derivable_pt_lim_ext (fun a => a * entr - 0.5 * chisq + ln a + 0.5 * rsum (s_nw (v_setup v)) (fun i => ln (a / (a + lam i))))).
  { intros a. rewrite ln_exp. reflexivity. }
  replace ((1 + (trace_of v lam alpha - n_good entr alpha) / 2) / alpha) with
    (1 * entr - 0 + / alpha + 0.5 * rsum (s_nw (v_setup v)) (fun i => lam i / (alpha + lam i) / alpha)).
  - apply (derivable_pt_lim_plus (fun a => a * entr - 0.5 * chisq + ln a) (fun a => 0.5 * rsum (s_nw (v_setup v)) (fun i => ln (a / (a + lam i))))).
    + apply (derivable_pt_lim_plus (fun a => a * entr - 0.5 * chisq) ln); [|apply derivable_pt_lim_ln, Ha].
      apply (derivable_pt_lim_minus (fun a => a * entr) (fun _ => 0.5 * chisq)); [|apply derivable_pt_lim_const].
      replace (1 * entr) with (1 * entr + alpha * 0) by ring. apply (derivable_pt_lim_mult (fun a => a) (fun _ => entr)); [apply derivable_pt_lim_id|apply derivable_pt_lim_const].
    + apply (derivable_pt_lim_scal (fun a => rsum (s_nw (v_setup v)) (fun i => ln (a / (a + lam i))))). apply deriv_rsum. intros i Hi. apply ln_share_deriv; [exact Ha|apply P, Hi].
  - unfold trace_of, n_good. rewrite (rsum_ext _ (fun i => lam i / (alpha + lam i) / alpha) (fun i => lam i / (alpha + lam i) * / alpha)) by (intros; reflexivity).
    rewrite (rsum_scal_r _ (/ alpha) (fun i => lam i / (alpha + lam i))). set (t := rsum _ _). replace 0.5 with (/ 2) by lra. field. lra.
Qed.
(** without the eigenvalues *)
Lemma share_tangent alpha m x : 0 < alpha -> 0 <= m -> 0 <= x -> x / (alpha + x) <= m / (alpha + m) + alpha / (alpha + m) ^ 2 * (x - m).
Proof.
  intros Ha Hm Hx. assert (E : m / (alpha + m) + alpha / (alpha + m) ^ 2 * (x - m) - x / (alpha + x) = alpha * (x - m) ^ 2 / ((alpha + m) ^ 2 * (alpha + x))) by (field; lra).
  assert (0 <= alpha * (x - m) ^ 2 / ((alpha + m) ^ 2 * (alpha + x))); [|lra].
  apply Rmult_le_pos; [apply Rmult_le_pos; [lra|apply pow2_ge_0]|]. apply Rlt_le, Rinv_0_lt_compat, Rmult_lt_0_compat; [apply pow_lt|]; lra.
Qed.
Lemma ln_tangent alpha m x : 0 < alpha -> 0 <= m -> 0 <= x -> - ln (alpha / (alpha + x)) <= - ln (alpha / (alpha + m)) + / (alpha + m) * (x - m).
Proof.
  intros Ha Hm Hx. unfold Rdiv. rewrite !ln_mult, !ln_Rinv by (try apply Rinv_0_lt_compat; lra).
  assert (X : ln ((alpha + x) / (alpha + m)) <= (alpha + x) / (alpha + m) - 1).
  { assert (Z : 0 < (alpha + x) / (alpha + m)) by (apply Rdiv_lt_0_compat; lra). pose proof (exp_ineq1_le (ln ((alpha + x) / (alpha + m)))) as Y. rewrite exp_ln in Y by exact Z. lra. }
  unfold Rdiv in X at 1. rewrite ln_mult, ln_Rinv in X by (try apply Rinv_0_lt_compat; lra).
  replace (/ (alpha + m) * (x - m)) with ((alpha + x) / (alpha + m) - 1) by (field; lra). lra.
Qed.
Lemma fallback v A lam alpha : sensible (v_setup v) -> 0 < alpha -> eigenvalues (s_nw (v_setup v)) (lambda_of v A) lam -> (forall i, (i < s_nw (v_setup v))%nat -> 0 <= lam i) ->
  trace_of v lam alpha <= trace_of v (fun i => lambda_of v A i i) alpha /\
  forall entr chisq, prob_of v (fun i => lambda_of v A i i) alpha entr chisq <= prob_of v lam alpha entr chisq.
Proof.
  intros OK Ha (Q & H1 & H2 & H3) P.
  pose proof (jensen _ _ Q lam H1 H2 H3 (fun x => x / (alpha + x)) (fun m => alpha / (alpha + m) ^ 2) (fun i _ => lambda_diag_nonneg v A i OK) (fun m x Hm Hx => share_tangent alpha m x Ha Hm Hx) P) as J1.
  pose proof (jensen _ _ Q lam H1 H2 H3 (fun x => - ln (alpha / (alpha + x))) (fun m => / (alpha + m)) (fun i _ => lambda_diag_nonneg v A i OK) (fun m x Hm Hx => ln_tangent alpha m x Ha Hm Hx) P) as J2.
  split; [exact J1|]. intros entr chisq. cbn beta in J2.
  rewrite (rsum_ext _ _ (fun k => -1 * ln (alpha / (alpha + lam k)))) in J2 by (intros; ring).
  rewrite (rsum_ext _ (fun i => - ln _) (fun i => -1 * ln (alpha / (alpha + lambda_of v A i i)))) in J2 by (intros; ring). rewrite !rsum_scal in J2. unfold prob_of.
  match goal with |- exp ?a <= exp ?b => destruct (Req_dec a b) as [->|N]; [lra|]; apply Rlt_le, exp_increasing; lra end.
Qed.
End T.
