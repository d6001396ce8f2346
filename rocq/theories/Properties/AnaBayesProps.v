(** C112: the Bayesian quantities of the maximum-entropy solver and the 'classic' choice of the weight of the entropy. *)
From Coq Require Import Reals Lra Lia List String.
From Verif Require Import Base.PyBase Base.RSum Model.AnaSolver Model.AnaAlpha Model.AnaBayes Spec.AnaSolverSpec Spec.AnaAlphaSpec Spec.AnaBayesSpec Proofs.RSumP Proofs.AnaSolverP Proofs.AnaSolverOptP Proofs.AnaSolverMainP Proofs.AnaSolverRepP Proofs.AnaSolverExP
  Proofs.AnaBayesEigP Proofs.AnaBayesP Proofs.AnaBayesTraceP Proofs.AnaBayesClassicP Proofs.AnaBayesMainP Properties.AnaAlphaProps.
Import ListNotations.
Local Open Scope R_scope.

(** The curvature is the exact second-order part of the misfit (with the full kernel) around every spectrum; it is symmetric and never negative. *)
Theorem C112_curvature v : (forall A, is_half_hessian (v_setup v) A (d2chi2 v)) /\ symmetric (s_nw (v_setup v)) (d2chi2 v) /\
  (sensible (v_setup v) -> forall h, 0 <= rsum (s_nw (v_setup v)) (fun i => rsum (s_nw (v_setup v)) (fun j => h i * d2chi2 v i j * h j))).
Proof.
  split; [intros A; apply d2_hessian|]. split; [intros i j _ _; apply d2_sym|]. intros (_ & _ & _ & HE) h. rewrite d2_form.
  apply rsum_nonneg. intros k Hk. apply Rmult_le_pos; [apply HE, Hk|apply pow2_ge_0].
Qed.
Print Assumptions C112_curvature.

(** The matrix whose eigenvalues are taken is that curvature measured in units of the curvature of the entropy: the second derivatives of the entropy
    with respect to the values of the spectrum are - h, and the matrix is h^-1/2 (curvature) h^-1/2; for both kinds of problems. *)
Theorem C112_matrix v A : sensible (v_setup v) -> (s_off (v_setup v) = false -> forall i, (i < s_nw (v_setup v))%nat -> 0 < A i) ->
  let L := if s_off (v_setup v) then lambda_off v A else lambda_diag v A in
  exists h, (forall i, (i < s_nw (v_setup v))%nat -> 0 < h i /\ entropy_curvature (v_setup v) A i (- h i)) /\
    forall i j, (i < s_nw (v_setup v))%nat -> (j < s_nw (v_setup v))%nat -> L i j * (sqrt (h i) * sqrt (h j)) = d2chi2 v i j.
Proof.
  intros OK HA L. exists (h_of (v_setup v) A). split; [intros i Hi; apply h_curvature; [exact OK|intros F; apply HA; assumption|exact Hi]|].
  intros i j Hi Hj. change L with (lambda_of v A). rewrite lambda_q.
  pose proof (q_h v A i OK (fun F => HA F i Hi) Hi) as Q1. pose proof (q_h v A j OK (fun F => HA F j Hj) Hj) as Q2.
  replace (q_of v A i * d2chi2 v i j * q_of v A j * (sqrt (h_of (v_setup v) A i) * sqrt (h_of (v_setup v) A j))) with
    ((q_of v A i * sqrt (h_of (v_setup v) A i)) * (q_of v A j * sqrt (h_of (v_setup v) A j)) * d2chi2 v i j) by ring. rewrite Q1, Q2. ring.
Qed.
Print Assumptions C112_matrix.

(** The trace reported is that of L (alpha + L)^-1, where L is the matrix at the spectrum found (before blurring); it is at least 0, smaller than the number
    of mesh points and at most the number of data. *)
Theorem C112_trace eigvalsh newton lm blur v o alpha us b lam : finds_eigenvalues eigvalsh -> sensible (v_setup v) -> 0 < alpha ->
  maxent_bayes eigvalsh newton lm blur v o alpha us = Ok b ->
  let s := v_setup v in let A := singular_to_realspace v (r_u (br b)) in let L := if s_off s then lambda_off v A else lambda_diag v A in
  eigvalsh (s_nw s) L = Ok lam ->
  (exists G, share_of (s_nw s) alpha L G) /\ (forall G, share_of (s_nw s) alpha L G -> br_tr b = trace (s_nw s) G) /\
  0 <= br_tr b /\ br_tr b < INR (s_nw s) /\ br_tr b <= INR (s_niw s).
Proof.
  intros HE OK Ha H s A L E. destruct (bayes_ok eigvalsh newton lm blur v o alpha us b H) as (_ & lam' & E' & _ & T & _).
  change (eigs eigvalsh v A = Ok lam') in E'. rewrite (eigs_of eigvalsh v A lam E) in E'. injection E' as <-. rewrite T.
  destruct (trace_facts eigvalsh HE v A lam alpha OK Ha E) as (X1 & X2 & (X3 & X4) & X5). repeat (split; [assumption|]). assumption.
Qed.
Print Assumptions C112_trace.

(** At a fixed spectrum the trace does not grow with the weight of the entropy. *)
Theorem C112_trace_antitone v lam a1 a2 : 0 < a1 -> a1 <= a2 -> (forall i, (i < s_nw (v_setup v))%nat -> 0 <= lam i) -> trace_of v lam a2 <= trace_of v lam a1.
Proof. apply trace_antitone. Qed.
Print Assumptions C112_trace_antitone.

(** The number of good data is minus twice the weight times the entropy; it is never negative and vanishes only if the spectrum is the featureless one.
    The criterion is the quotient of the two; without good data it is minus infinity, or undefined if the trace vanishes too. *)
Theorem C112_criterion eigvalsh newton lm blur v o alpha us b : finds_eigenvalues eigvalsh -> sensible (v_setup v) -> 0 < alpha ->
  maxent_bayes eigvalsh newton lm blur v o alpha us = Ok b ->
  let s := v_setup v in let A := singular_to_realspace v (r_u (br b)) in
  maxent_optimization newton lm blur v o alpha us = Ok (br b) /\
  br_ng b = - 2 * alpha * entropy_of s A /\ 0 <= br_ng b /\ (br_ng b = 0 <-> same (s_nw s) A (featureless s)) /\ 0 <= br_tr b /\
  match br_conv b with
  | Fin c => br_ng b <> 0 /\ c * br_ng b = br_tr b /\ 0 <= c
  | NegInf => br_ng b = 0 /\ 0 < br_tr b
  | NaN => br_ng b = 0 /\ br_tr b = 0
  | PosInf => False
  end.
Proof.
  intros HE OK Ha H s A. split; [apply (bayes_ok eigvalsh newton lm blur v o alpha us b H)|].
  destruct (bayes_reported eigvalsh HE newton lm blur v o OK alpha us b Ha H) as (X1 & X2 & X3 & X4 & X5).
  split; [exact X1|]. split; [exact X2|]. split; [exact X3|]. split; [exact X4|]. rewrite X5. unfold ratio. destruct (Req_EM_T (br_ng b) 0) as [Z|Z].
  - destruct (Rlt_dec 0 (br_tr b)); [auto|]. destruct (Rlt_dec (br_tr b) 0); [lra|]. split; [exact Z|lra].
  - split; [exact Z|]. split; [field; exact Z|]. apply Rmult_le_pos; [exact X4|]. apply Rlt_le, Rinv_0_lt_compat. lra.
Qed.
Print Assumptions C112_criterion.

(** The probability of a weight, for diagonal elements: alpha e^Q times the square root of the product of alpha / (alpha + lambda) over the eigenvalues, so that
    it is positive and at most alpha e^Q; off-diagonal elements have none. *)
Theorem C112_probability eigvalsh newton lm blur v o alpha us b : finds_eigenvalues eigvalsh -> sensible (v_setup v) -> 0 < alpha ->
  maxent_bayes eigvalsh newton lm blur v o alpha us = Ok b ->
  let s := v_setup v in let A := singular_to_realspace v (r_u (br b)) in
  if s_off s then br_prob b = None
  else exists p, br_prob b = Some p /\ 0 < p <= alpha * exp (r_Q (br b)) /\
    forall lam, eigvalsh (s_nw s) (lambda_diag v A) = Ok lam ->
      eigenvalues (s_nw s) (lambda_diag v A) lam /\ p = alpha * exp (r_Q (br b)) * sqrt (rprod (s_nw s) (fun i => alpha / (alpha + lam i))).
Proof.
  intros HE OK Ha H s A. destruct (bayes_ok eigvalsh newton lm blur v o alpha us b H) as (Hr & lam & E & _ & _ & _ & P). change (eigs eigvalsh v A = Ok lam) in E. fold s in P. destruct (s_off s) eqn:O; [exact P|].
  destruct (reported newton lm blur v o alpha us (br b) OK Ha Hr) as (_ & _ & _ & Y4 & Y5 & Y6 & _).
  pose proof (prob_facts v lam alpha (r_entropy (br b)) (r_chi2 (br b)) Ha (eigs_nonneg eigvalsh HE v A lam OK E)) as F. cbv zeta in F.
  assert (Q : alpha * r_entropy (br b) - / 2 * r_chi2 (br b) = r_Q (br b)) by (rewrite Y6, Y4, Y5; reflexivity). rewrite Q in F. destruct F as [F1 F2].
  eexists. split; [exact P|]. split; [exact F2|]. intros lam' E'. assert (L : lambda_of v A = lambda_diag v A) by (unfold lambda_of; fold s; rewrite O; reflexivity).
  rewrite <- L in E' |- *. split; [apply (HE _ _ _ (lambda_sym v A _) E')|]. rewrite (eigs_of eigvalsh v A lam' E') in E. injection E as ->. exact F1.
Qed.
Print Assumptions C112_probability.

(** Finding: the criterion and the probability disagree.  At a fixed spectrum the logarithm of the probability changes with the logarithm of the weight at the rate
    1 + (trace - good data) / 2; where the criterion is 1 ("maximum of the probability distribution") that rate is 1, not 0. *)
Theorem C112_slope_finding eigvalsh v A lam alpha entr chisq : finds_eigenvalues eigvalsh -> sensible (v_setup v) -> s_off (v_setup v) = false -> 0 < alpha ->
  eigvalsh (s_nw (v_setup v)) (lambda_diag v A) = Ok lam ->
  derivable_pt_lim (fun a => match posterior_probability eigvalsh v A a entr chisq with Ok p => ln p | Raise _ => 0 end) alpha
    ((1 + (trace_of v lam alpha - n_good entr alpha) / 2) / alpha) /\
  (ratio (trace_of v lam alpha) (n_good entr alpha) = Fin 1 -> (1 + (trace_of v lam alpha - n_good entr alpha) / 2) / alpha = 1 / alpha).
Proof.
  intros HE OK O Ha E. split.
  - assert (L : lambda_of v A = lambda_diag v A) by (unfold lambda_of; rewrite O; reflexivity).
    apply (derivable_pt_lim_ext (fun a => ln (prob_of v lam a entr chisq))).
    + intros a. unfold posterior_probability, eig_or_diag. rewrite E. reflexivity.
    + apply prob_slope; [exact Ha|]. apply (eigs_nonneg eigvalsh HE v A lam OK). apply eigs_of. rewrite L. exact E.
  - intros H. apply ratio_one in H. destruct H as [_ ->]. field. lra.
Qed.
Print Assumptions C112_slope_finding.

(** If numpy does not find the eigenvalues, the diagonal of the matrix is used instead for diagonal elements, which never lowers the trace and never raises the
    probability; for off-diagonal elements the error is passed on. *)
Theorem C112_fallback eigvalsh v A entr alpha chisq : sensible (v_setup v) -> 0 < alpha ->
  let s := v_setup v in
  (eigvalsh (s_nw s) (lambda_off v A) = Raise LinAlgError -> bayes_conv_offdiag eigvalsh v A entr alpha = Raise LinAlgError) /\
  (s_off s = false -> eigvalsh (s_nw s) (lambda_diag v A) = Raise LinAlgError ->
   exists ng tr p, bayes_conv eigvalsh v A entr alpha = Ok (ng, tr, ratio tr ng) /\ posterior_probability eigvalsh v A alpha entr chisq = Ok p /\ ng = - 2 * alpha * entr /\ 0 <= tr /\
     forall lam, eigenvalues (s_nw s) (lambda_diag v A) lam -> (forall i, (i < s_nw s)%nat -> 0 <= lam i) ->
       rsum (s_nw s) (fun i => lam i / (alpha + lam i)) <= tr /\ p <= alpha * exp (alpha * entr - / 2 * chisq) * sqrt (rprod (s_nw s) (fun i => alpha / (alpha + lam i)))).
Proof.
  intros OK Ha s. split; [intros E; unfold bayes_conv_offdiag; fold s; rewrite E; reflexivity|]. intros O E.
  assert (L : lambda_of v A = lambda_diag v A) by (unfold lambda_of; fold s; rewrite O; reflexivity).
  exists (n_good entr alpha), (trace_of v (fun i => lambda_diag v A i i) alpha), (prob_of v (fun i => lambda_diag v A i i) alpha entr chisq).
  unfold bayes_conv, posterior_probability, eig_or_diag. fold s. rewrite E. cbn [bind]. split; [reflexivity|]. split; [reflexivity|]. split; [reflexivity|]. rewrite <- L.
  split; [apply trace_nonneg; [exact Ha|]; intros i _; apply lambda_diag_nonneg, OK|].
  intros lam HL P. destruct (fallback v A lam alpha OK Ha HL P) as [F1 F2]. split; [exact F1|].
  destruct (prob_facts v lam alpha entr chisq Ha P) as [Q1 _]. unfold s. rewrite <- Q1. apply F2.
Qed.
Print Assumptions C112_fallback.

(** The 'classic' search: it tries 10^6, 10^5, ... from zeros as long as the criterion is below 1; scipy's root search starts from a weight predicted from the last two
    results; the result is an optimization at the root found.  An error comes from an optimization or from the root search, or is the RuntimeError raised when the
    criterion is not below 1 at 10^6. *)
Theorem C112_classic opt sci fuel :
  match solve_classic opt sci fuel with
  | None => forall j, (S j < fuel)%nat -> exists b, opt (weight_k (10 ^ 6) 10 j) (fun _ => 0) = Ok b /\ under_one (br_conv b)
  | Some (Raise e) =>
     (exists n, opt (weight_k (10 ^ 6) 10 n) (fun _ => 0) = Raise e /\ forall j, (j < n)%nat -> exists b, opt (weight_k (10 ^ 6) 10 j) (fun _ => 0) = Ok b /\ under_one (br_conv b)) \/
     (e = RuntimeError /\ exists b, opt (10 ^ 6) (fun _ => 0) = Ok b /\ ~ under_one (br_conv b)) \/
     (exists pre b2 b1, descent opt (pre ++ [b2; b1]) b1 /\ (sci (predict b2 b1) (r_u (br b2)) = Raise e \/
        exists a extra u, sci (predict b2 b1) (r_u (br b2)) = Ok (a, extra) /\ opt a u = Raise e))
  | Some (Ok (sol, all)) => exists pre b2 b1 a extra u b2', descent opt (pre ++ [b2; b1]) b1 /\ sci (predict b2 b1) (r_u (br b2)) = Ok (a, extra) /\
      (extra = [] /\ u = r_u (br b2) \/ exists l x, extra = l ++ [x] /\ u = r_u (br x)) /\ opt a u = Ok sol /\
      all = pre ++ [b2'; b1] ++ extra /\ same_but_u b2' b2 /\ r_u (br b2') = u
  end.
Proof.
  pose proof (classic_spec opt sci fuel) as X. destruct (solve_classic opt sci fuel) as [[[sol all]|e]|]; [| |exact X].
  - destruct X as (pre & o2 & o1 & a & extra & D & S1 & S2 & ->). exists pre, o2, o1, a, extra, (final_u (r_u (br o2)) extra), (bwith_u o2 (final_u (r_u (br o2)) extra)).
    split; [exact D|]. split; [exact S1|]. split; [|split; [exact S2|split; [reflexivity|split; [repeat split; reflexivity|reflexivity]]]].
    unfold final_u. destruct (rev extra) as [|x r] eqn:R.
    + left. split; [rewrite <- (rev_involutive extra), R; reflexivity|reflexivity].
    + right. exists (rev r), x. split; [rewrite <- (rev_involutive extra), R; reflexivity|reflexivity].
  - destruct X as [X|[X|(pre & o2 & o1 & D & [S|(a & extra & S1 & S2)])]]; [left; exact X|right; left; exact X| |]; right; right; exists pre, o2, o1; (split; [exact D|]); [left; exact S|right].
    exists a, extra, (final_u (r_u (br o2)) extra). auto.
Qed.
Print Assumptions C112_classic.

(** The prediction is where the straight line through the last two points, in logarithms, reaches 1; it lies between the last two weights.  There is none exactly if one
    of the last two values of the criterion has no logarithm, or they are equal. *)
Theorem C112_prediction b2 b1 :
  (forall c2 c1 a2 a1, br_conv b2 = Fin c2 -> br_conv b1 = Fin c1 -> r_alpha (br b2) = a2 -> r_alpha (br b1) = a1 -> 0 < c2 < 1 -> 1 <= c1 -> 0 < a1 < a2 ->
   exists a, predict b2 b1 = Some a /\ a1 <= a < a2 /\ (log10 a - log10 a2) * (log10 c1 - log10 c2) = (log10 1 - log10 c2) * (log10 a1 - log10 a2)) /\
  (predict b2 b1 = None <-> ~ exists c2 c1, br_conv b2 = Fin c2 /\ br_conv b1 = Fin c1 /\ 0 < c2 /\ 0 < c1 /\ c1 <> c2).
Proof. split; [intros c2 c1 a2 a1; apply predict_spec|apply predict_none]. Qed.
Print Assumptions C112_prediction.

(** The Bayesian quantities at one weight do not depend on the starting point; the criterion is 1 exactly if the trace equals minus twice the weight times the entropy
    and the spectrum is not the featureless one. *)
Theorem C112_independent eigvalsh newton lm blur v o alpha us us' b b' : finds_eigenvalues eigvalsh -> sensible (v_setup v) -> finds_roots newton v -> finds_roots lm v ->
  (forall A, exists lam, eigvalsh (s_nw (v_setup v)) (if s_off (v_setup v) then lambda_off v A else lambda_diag v A) = Ok lam) -> 0 < alpha ->
  maxent_bayes eigvalsh newton lm blur v o alpha us = Ok b -> maxent_bayes eigvalsh newton lm blur v o alpha us' = Ok b' ->
  br_ng b = br_ng b' /\ br_tr b = br_tr b' /\ br_conv b = br_conv b' /\
  (br_conv b = Fin 1 <-> br_tr b = - 2 * alpha * entropy_of (v_setup v) (singular_to_realspace v (r_u (br b))) /\ ~ same (s_nw (v_setup v)) (singular_to_realspace v (r_u (br b))) (featureless (v_setup v))).
Proof.
  intros HE OK N1 N2 HT Ha H H'. destruct (bayes_unique eigvalsh HE newton lm blur v o OK alpha us us' b b' N1 N2 HT Ha H H') as (X1 & X2 & X3).
  split; [exact X1|]. split; [exact X2|]. split; [exact X3|]. destruct (bayes_reported eigvalsh HE newton lm blur v o OK alpha us b Ha H) as (G & _ & GZ & _ & C).
  rewrite C, ratio_one, <- GZ, <- G. tauto.
Qed.
Print Assumptions C112_independent.

(** If the root search finds a root of the criterion, the spectrum returned satisfies it: the trace equals minus twice the weight times the entropy. *)
Theorem C112_result eigvalsh newton lm blur v o sci fuel sol all : finds_eigenvalues eigvalsh -> sensible (v_setup v) -> finds_roots newton v -> finds_roots lm v ->
  (forall A, exists lam, eigvalsh (s_nw (v_setup v)) (if s_off (v_setup v) then lambda_off v A else lambda_diag v A) = Ok lam) ->
  let opt := maxent_bayes eigvalsh newton lm blur v o in
  (forall start us a extra, sci start us = Ok (a, extra) -> 0 < a /\ exists us' b, opt a us' = Ok b /\ br_conv b = Fin 1) ->
  solve_classic opt sci fuel = Some (Ok (sol, all)) ->
  let A := singular_to_realspace v (r_u (br sol)) in
  br_conv sol = Fin 1 /\ br_tr sol = br_ng sol /\ br_tr sol = - 2 * r_alpha (br sol) * entropy_of (v_setup v) A /\ ~ same (s_nw (v_setup v)) A (featureless (v_setup v)).
Proof.
  intros HE OK N1 N2 HT opt Hsci H A. pose proof (classic_spec opt sci fuel) as X. rewrite H in X. destruct X as (pre & o2 & o1 & a & extra & _ & S1 & S2 & _).
  destruct (Hsci _ _ _ _ S1) as (Ha & us' & b & Hb & Cb).
  destruct (bayes_unique eigvalsh HE newton lm blur v o OK a us' (final_u (r_u (br o2)) extra) b sol N1 N2 HT Ha Hb S2) as (E1 & E2 & E3).
  destruct (bayes_reported eigvalsh HE newton lm blur v o OK a _ sol Ha S2) as (G & _ & GZ & _ & C). rewrite <- E3 in C |- *. split; [exact Cb|].
  rewrite Cb in C. symmetry in C. apply ratio_one in C. destruct C as [C1 C2]. split; [exact C2|].
  destruct (bayes_ok eigvalsh newton lm blur v o a _ sol S2) as (Hr & _). destruct (reported newton lm blur v o a _ (br sol) OK Ha Hr) as (Ra & _).
  split; [rewrite C2, G, Ra; reflexivity|]. intros S. apply C1, GZ, S.
Qed.
Print Assumptions C112_result.

(** Finding: the 'classic' search never ends if the criterion is below 1 at every weight tried. *)
Theorem C112_classic_refuted opt sci : (forall k, exists b, opt (weight_k (10 ^ 6) 10 k) (fun _ => 0) = Ok b /\ under_one (br_conv b)) <-> forall fuel, solve_classic opt sci fuel = None.
Proof.
  split; [apply classic_never|]. intros H k. pose proof (classic_spec opt sci (S (S k))) as X. rewrite (H (S (S k))) in X. apply X. lia.
Qed.
Print Assumptions C112_classic_refuted.

(** Finding: it never ends on data that the default model reproduces exactly (the entropy is then zero, and the criterion minus infinity). *)
Theorem C112_default_refuted eigvalsh newton lm v o sci fuel : finds_eigenvalues eigvalsh -> sensible (v_setup v) -> finds_roots newton v -> finds_roots lm v ->
  (o = "newton" \/ o = "scipy_lm")%string ->
  (forall u0 alpha, 0 < alpha -> (exists u, newton (n_sv v) (compute_f_J v) u0 alpha = Ok u) /\ exists u, lm (n_sv v) (compute_f_J v) u0 alpha = Ok u) ->
  (forall A, exists lam, eigvalsh (s_nw (v_setup v)) (if s_off (v_setup v) then lambda_off v A else lambda_diag v A) = Ok lam) ->
  (exists k l, (k < s_niw (v_setup v))%nat /\ (l < s_nw (v_setup v))%nat /\ 0 < s_E (v_setup v) k /\ s_K (v_setup v) k l <> 0) ->
  (forall k, (k < s_niw (v_setup v))%nat -> s_data (v_setup v) k = fit_at (v_setup v) (kept_kernel v) (featureless (v_setup v)) k) ->
  solve_classic (maxent_bayes eigvalsh newton lm None v o) sci fuel = None.
Proof. intros HE OK N1 N2 Ho HN HT HK HD. apply never_ends; auto. Qed.
Print Assumptions C112_default_refuted.

(** Bryan's choice with these probabilities: they are positive, so that the spectrum returned is an average with positive weights adding up to 1, and without blurring it is positive. *)
Theorem C112_bryan eigvalsh newton lm v o fuel A acc : finds_eigenvalues eigvalsh -> sensible (v_setup v) -> s_off (v_setup v) = false ->
  solve_bryan (bryan_sample (maxent_bayes eigvalsh newton lm None v o)) fuel = Some (Ok (A, acc)) ->
  (forall l, (l < s_nw (v_setup v))%nat -> 0 < A l) /\
  exists om : nat -> R, (forall i, (i < List.length acc)%nat -> 0 < om i) /\ rsum (List.length acc) om = 1 /\
    forall l, A l = rsum (List.length acc) (fun i => om i * b_A (nth i acc (Sample 0 zeros 0)) l).
Proof.
  intros HE OK O H. set (opt := maxent_bayes eigvalsh newton lm None v o) in *.
  assert (P : forall a A0 p, bryan_sample opt a = Ok (A0, p) -> 0 < p /\ forall l, (l < s_nw (v_setup v))%nat -> 0 < A0 l).
  { intros a A0 p Hs. unfold bryan_sample in Hs. destruct (opt a zeros) as [b|] eqn:E; cbn [bind] in Hs; [|discriminate].
    destruct (bayes_ok eigvalsh newton lm None v o a zeros b E) as (Hr & lam & _ & _ & _ & _ & Pb). rewrite O in Pb. rewrite Pb in Hs. injection Hs as <- <-. split; [unfold prob_of; apply exp_pos|].
    intros l Hl. assert (RA : r_A (br b) = singular_to_realspace v (r_u (br b))).
    { unfold maxent_optimization in Hr. match type of Hr with bind ?m _ = _ => destruct m as [u|]; cbn [bind] in Hr; [|discriminate] end. injection Hr as <-. reflexivity. }
    rewrite RA. unfold singular_to_realspace. rewrite O. unfold singular_to_realspace_diag. destruct OK as (_ & _ & HD & _). apply Rmult_lt_0_compat; [apply HD, Hl|apply exp_pos]. }
  destruct (C107_bryan (bryan_sample opt) fuel A acc (fun a A0 p Hs => proj1 (P a A0 p Hs)) H) as (N2 & B1 & _ & om & O1 & O2 & O3).
  split; [|exists om; auto]. intros l Hl. rewrite O3.
  apply Rle_lt_trans with (rsum (List.length acc) (fun _ => 0)); [rewrite rsum_zero; [lra|reflexivity]|].
  assert (Z : forall i, (i < List.length acc)%nat -> 0 < om i * b_A (nth i acc (Sample 0 zeros 0)) l).
  { intros i Hi. apply Rmult_lt_0_compat; [apply O1, Hi|]. apply (proj2 (P _ _ _ (proj2 (B1 i Hi))) l Hl). }
  apply rsum_lt with 0%nat; [intros i Hi; apply Rlt_le, Z, Hi|lia|apply Z; lia].
Qed.
Print Assumptions C112_bryan.

(** Refuted: Bryan's choice works for off-diagonal elements.  It fails with a TypeError after the first optimization, since they have no probability. *)
Theorem C112_bryan_off_refuted eigvalsh newton lm blur v o fuel b : s_off (v_setup v) = true -> maxent_bayes eigvalsh newton lm blur v o 500 (fun _ => 0) = Ok b ->
  solve_bryan (bryan_sample (maxent_bayes eigvalsh newton lm blur v o)) (S fuel) = Some (Raise TypeError).
Proof.
  intros O H. unfold solve_bryan. cbn [bryan_loop]. unfold bryan_sample. change zeros with (fun _ : nat => 0). rewrite H. cbn [bind].
  destruct (bayes_ok eigvalsh newton lm blur v o 500 _ b H) as (_ & lam & _ & _ & _ & _ & P). rewrite O in P. rewrite P. reflexivity.
Qed.
Print Assumptions C112_bryan_off_refuted.

(** an eigenvalue routine for diagonal matrices, and what it gives for the problem of two frequencies *)
Definition off_zero (n : nat) (M : mat) : bool := forallb (fun i => forallb (fun j => if Nat.eqb i j then true else if Req_EM_T (M i j) 0 then true else false) (seq 0 n)) (seq 0 n).
Definition ex_eigvalsh (n : nat) (M : mat) : res vec := if off_zero n M then Ok (fun i => M i i) else Raise LinAlgError.
Lemma ex_finds : finds_eigenvalues ex_eigvalsh.
Proof.
  intros n M lam _ H. unfold ex_eigvalsh in H. destruct (off_zero n M) eqn:E; [|discriminate]. injection H as <-. exists (fun i j => if Nat.eqb i j then 1 else 0).
  assert (Z : forall i j, (i < n)%nat -> (j < n)%nat -> i <> j -> M i j = 0).
  { intros i j Hi Hj N. unfold off_zero in E. rewrite forallb_forall in E. specialize (E i (proj2 (in_seq _ _ _) (conj (Nat.le_0_l _) Hi))). rewrite forallb_forall in E.
    specialize (E j (proj2 (in_seq _ _ _) (conj (Nat.le_0_l _) Hj))). replace (Nat.eqb i j) with false in E by (symmetry; apply Nat.eqb_neq, N). destruct (Req_EM_T (M i j) 0); [assumption|discriminate]. }
  split; [|split].
  - intros i j Hi Hj. rewrite (rsum_ext n _ (fun k => (if Nat.eqb i k then 1 else 0) * M k k * (if Nat.eqb k j then 1 else 0))) by (intros; rewrite (Nat.eqb_sym j); reflexivity).
    rewrite (pick n (fun k => (if Nat.eqb i k then 1 else 0) * M k k) j Hj). destruct (Nat.eqb_spec i j) as [->|N]; [ring|rewrite (Z i j Hi Hj N); ring].
  - intros k l Hk Hl. rewrite (pick n (fun i => if Nat.eqb i k then 1 else 0) l Hl). rewrite Nat.eqb_sym. reflexivity.
  - intros i j Hi Hj. rewrite (pick' n (fun k => if Nat.eqb i k then 1 else 0) j Hj). reflexivity.
Qed.
Lemma ex_diag g1 g2 A : ex_eigvalsh 2 (lambda_diag (ex_solver g1 g2) A) = Ok (fun i => lambda_diag (ex_solver g1 g2) A i i).
Proof.
  unfold ex_eigvalsh. replace (off_zero 2 (lambda_diag (ex_solver g1 g2) A)) with true; [reflexivity|]. symmetry. unfold off_zero. cbn [seq forallb Nat.eqb andb].
  assert (Z : forall i j, (i < 2)%nat -> (j < 2)%nat -> i <> j -> lambda_diag (ex_solver g1 g2) A i j = 0).
  { intros i j Hi Hj N. unfold lambda_diag, d2chi2, s_K. cbn [ex_solver v_setup ex_setup s_niw s_fermi s_nim s_kernel rsum fst].
    destruct i as [|[|i]], j as [|[|j]]; try lia; cbn [Nat.eqb]; ring. }
  rewrite (Z 0%nat 1%nat), (Z 1%nat 0%nat) by lia. destruct (Req_EM_T 0 0); [reflexivity|contradiction].
Qed.
Definition ex_newton (_ : nat) (_ : vec -> R -> vec * mat) (_ : vec) (_ : R) : res vec := Ok (fun _ => 0).
(** at the default model the eigenvalues are 2 and 1/2: at weight 1 the trace is 2/3 + 1/3 = 1; the criterion is minus infinity *)
Lemma ex_run alpha us : exists b, maxent_bayes ex_eigvalsh ex_newton ex_newton None (ex_solver 1 0) "newton" alpha us = Ok b /\ r_u (br b) = (fun _ => 0).
Proof.
  unfold maxent_bayes, maxent_optimization, ex_newton. cbn [String.eqb Ascii.eqb Bool.eqb bind fst snd r_u].
  change (s_off (v_setup (ex_solver 1 0))) with false. cbn iota. unfold bayes_conv, posterior_probability, eig_or_diag.
  change (s_nw (v_setup (ex_solver 1 0))) with 2%nat. rewrite ex_diag. cbn [bind]. eexists. split; reflexivity.
Qed.
Lemma ex_one i : (i < 2)%nat -> singular_to_realspace (ex_solver 1 0) (fun _ => 0) i = 1.
Proof. intros Hi. exact (zero_feat (ex_solver 1 0) i Hi). Qed.
Lemma ex_entry i : (i < 2)%nat -> lambda_diag (ex_solver 1 0) (singular_to_realspace (ex_solver 1 0) (fun _ => 0)) i i = if Nat.eqb i 0 then 2 else / 2.
Proof.
  intros Hi. unfold lambda_diag. rewrite (ex_one i Hi). set (w := s_dw (v_setup (ex_solver 1 0)) i).
  assert (W : w = / 2). { unfold w, s_dw, dw_of, edge. cbn [ex_solver v_setup ex_setup s_nw s_w]. destruct i as [|[|i]]; [| |lia]; cbn [Nat.eqb Nat.sub INR]; lra. }
  assert (D : d2chi2 (ex_solver 1 0) i i = if Nat.eqb i 0 then 1 else / 4).
  { unfold d2chi2. fold w. rewrite W. unfold s_K, s_E. cbn [ex_solver v_setup ex_setup s_niw s_fermi s_nim s_kernel s_var rsum fst]. destruct i as [|[|i]]; [| |lia]; cbn [Nat.eqb]; unfold ex_sg; cbn [Nat.eqb]; lra. }
  rewrite D, W. replace (1 / / 2) with 2 by lra. pose proof (sqrt_sqrt 2 ltac:(lra)) as Q. destruct (Nat.eqb i 0); nra.
Qed.
Example C112_ex : finds_eigenvalues ex_eigvalsh /\ sensible (v_setup (ex_solver 1 0)) /\
  exists b, maxent_bayes ex_eigvalsh ex_newton ex_newton None (ex_solver 1 0) "newton" 1 (fun _ => 0) = Ok b /\ br_tr b = 1 /\ br_ng b = 0 /\ br_conv b = NegInf.
Proof.
  split; [exact ex_finds|]. split; [apply ex_sensible|]. destruct (ex_run 1 (fun _ => 0)) as (b & Hb & Ub). exists b. split; [exact Hb|].
  destruct (bayes_ok _ _ _ _ _ _ _ _ _ Hb) as (_ & lam & E & _ & T & _). rewrite Ub in E.
  change (eig_or_diag ex_eigvalsh (ex_solver 1 0) (lambda_diag (ex_solver 1 0) (singular_to_realspace (ex_solver 1 0) (fun _ => 0))) = Ok lam) in E.
  unfold eig_or_diag in E. change (s_nw (v_setup (ex_solver 1 0))) with 2%nat in E. rewrite ex_diag in E. injection E as <-.
  assert (T1 : br_tr b = 1).
  { rewrite T. unfold trace_of. change (s_nw (v_setup (ex_solver 1 0))) with 2%nat. cbn [rsum]. rewrite (ex_entry 0%nat), (ex_entry 1%nat) by lia. cbn [Nat.eqb]. lra. }
  destruct (bayes_reported ex_eigvalsh ex_finds ex_newton ex_newton None (ex_solver 1 0) "newton" (ex_sensible 1 0) 1 _ b ltac:(lra) Hb) as (_ & _ & Z & _ & C).
  assert (G : br_ng b = 0). { apply Z. rewrite Ub. intros l Hl. apply (zero_feat (ex_solver 1 0) l Hl). }
  split; [exact T1|]. split; [exact G|]. rewrite C, T1, G. unfold ratio. destruct (Req_EM_T 0 0); [|contradiction]. destruct (Rlt_dec 0 1); [reflexivity|lra].
Qed.
(** that problem is one on which the search never ends *)
Example C112_default_ex sci fuel : solve_classic (maxent_bayes ex_eigvalsh ex_newton ex_newton None (ex_solver 1 0) "newton") sci fuel = None.
Proof.
  apply C112_default_refuted; [exact ex_finds|apply ex_sensible| | |left; reflexivity| | | |].
  1, 2: intros u0 alpha u _ H; injection H as <-; pose proof (ex_root 0 alpha 0) as X; rewrite exp_0 in X; replace (alpha * 0 / 2 + 1) with 1 in X by field; exact X.
  - intros u0 alpha _. split; eexists; reflexivity.
  - intros A. eexists. apply ex_diag.
  - exists 0%nat, 0%nat. cbn. unfold s_E, s_K, ex_sg. cbn. repeat split; try lia; lra.
  - intros k Hk. unfold fit_at. rewrite integral_dw. unfold s_data, kept_kernel, featureless, dw_of, edge. cbn in *. unfold eye, ex_sg. destruct k as [|[|k]]; [| |lia]; cbn; lra.
Qed.
(** a search that ends: the criterion is 1/20, 1/2 and 5, the root is at 50000 *)
Definition ex_copt (a : R) (u : vec) : res bresult := Ok (BResult (Result (fun _ => a) (fun _ => a) 0 a (-1) 1 1 (- a - / 2)) 1 1 (Fin (50000 / a)) None).
Example C112_classic_ex : exists sol all, solve_classic ex_copt (fun _ us => let! b := ex_copt 50000 us in Ok (50000, [b])) 4 = Some (Ok (sol, all)) /\
  br_conv sol = Fin 1 /\ map br_conv all = [Fin (50000 / 10 ^ 6); Fin (50000 / (10 ^ 6 / 10)); Fin (50000 / (10 ^ 6 / 10 / 10)); Fin (50000 / 50000)].
Proof.
  unfold solve_classic. cbn [classic_loop below_one]. destruct (Rlt_dec 0 1); [|lra]. unfold ex_copt at 1. cbn [br_conv below_one]. destruct (Rlt_dec (50000 / 10 ^ 6) 1); [|lra].
  unfold ex_copt at 1. cbn [br_conv below_one]. destruct (Rlt_dec (50000 / (10 ^ 6 / 10)) 1); [|lra]. unfold ex_copt at 1. cbn [br_conv below_one].
  destruct (Rlt_dec (50000 / (10 ^ 6 / 10 / 10)) 1); [lra|]. do 2 eexists. split; [reflexivity|]. split; [cbn; f_equal; lra|reflexivity].
Qed.
Example C112_independent_ex us us' : exists b b', maxent_bayes ex_eigvalsh ex_newton ex_newton None (ex_solver 1 0) "newton" 1 us = Ok b /\
  maxent_bayes ex_eigvalsh ex_newton ex_newton None (ex_solver 1 0) "newton" 1 us' = Ok b' /\ br_tr b = br_tr b' /\ br_conv b = br_conv b'.
Proof.
  destruct (ex_run 1 us) as (b & Hb & _). destruct (ex_run 1 us') as (b' & Hb' & _). exists b, b'. split; [exact Hb|]. split; [exact Hb'|].
  assert (N : finds_roots ex_newton (ex_solver 1 0)).
  { intros u0 alpha u _ H. injection H as <-. pose proof (ex_root 0 alpha 0) as X. rewrite exp_0 in X. replace (alpha * 0 / 2 + 1) with 1 in X by field. exact X. }
  destruct (C112_independent ex_eigvalsh ex_newton ex_newton None (ex_solver 1 0) "newton" 1 us us' b b' ex_finds (ex_sensible 1 0) N N (fun A => ex_intro _ _ (ex_diag 1 0 A)) ltac:(lra) Hb Hb') as (_ & X & Y & _). auto.
Qed.
