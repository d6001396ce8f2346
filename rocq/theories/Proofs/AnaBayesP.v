(** The matrix whose eigenvalues are used. *)
From Coq Require Import Reals Lra Lia List.
From Verif Require Import Base.PyBase Base.RSum Model.AnaSolver Model.AnaBayes Spec.AnaSolverSpec Spec.AnaBayesSpec Proofs.RSumP Proofs.AnaSolverP Proofs.AnaSolverOptP Proofs.AnaSolverMainP Proofs.AnaSolverRepP Proofs.AnaBayesEigP.
Local Open Scope R_scope.

(** the matrix used for the kind of problem *)
Definition lambda_of (v : solver) (A : vec) : mat := if s_off (v_setup v) then lambda_off v A else lambda_diag v A.
Definition q_of (v : solver) (A : vec) (l : nat) : R :=
  if s_off (v_setup v) then Rpower ((A l ^ 2 + 4 * s_model (v_setup v) l * s_model (v_setup v) l) / s_dw (v_setup v) l ^ 2) 0.25 else sqrt (A l / s_dw (v_setup v) l).
Lemma lambda_q v A i j : lambda_of v A i j = q_of v A i * d2chi2 v i j * q_of v A j.
Proof. unfold lambda_of, q_of. destruct (s_off (v_setup v)); reflexivity. Qed.
Lemma d2_sym v i j : d2chi2 v i j = d2chi2 v j i.
Proof. unfold d2chi2. apply rsum_ext. intros; ring. Qed.
Lemma lambda_sym v A n : symmetric n (lambda_of v A).
Proof. intros i j _ _. rewrite !lambda_q, d2_sym. ring. Qed.
Definition b_of (v : solver) (q : vec) (k i : nat) : R := sqrt (s_E (v_setup v) k) * s_K (v_setup v) k i * s_dw (v_setup v) i * q i.
Lemma gram_of v q i j : (forall k, (k < s_niw (v_setup v))%nat -> 0 <= s_E (v_setup v) k) ->
  q i * d2chi2 v i j * q j = rsum (s_niw (v_setup v)) (fun k => b_of v q k i * b_of v q k j).
Proof.
  intros HE. unfold d2chi2, b_of. rewrite <- rsum_scal, <- rsum_scal_r. apply rsum_ext. intros k Hk.
  replace (s_E (v_setup v) k) with (sqrt (s_E (v_setup v) k) * sqrt (s_E (v_setup v) k)) at 1 by (apply sqrt_sqrt, HE, Hk). ring.
Qed.
Lemma lambda_gram v A i j : sensible (v_setup v) -> lambda_of v A i j = rsum (s_niw (v_setup v)) (fun k => b_of v (q_of v A) k i * b_of v (q_of v A) k j).
Proof. intros (_ & _ & _ & HE). rewrite lambda_q. apply gram_of, HE. Qed.
Lemma lambda_diag_nonneg v A i : sensible (v_setup v) -> 0 <= lambda_of v A i i.
Proof. intros OK. rewrite lambda_gram by exact OK. apply rsum_nonneg. intros k _. pose proof (pow2_ge_0 (b_of v (q_of v A) k i)). lra. Qed.

(** d2chi2 is the exact second-order part of the misfit *)
Lemma d2_form v h : rsum (s_nw (v_setup v)) (fun i => rsum (s_nw (v_setup v)) (fun j => h i * d2chi2 v i j * h j)) =
  rsum (s_niw (v_setup v)) (fun k => s_E (v_setup v) k * fit_at (v_setup v) (s_K (v_setup v)) h k ^ 2).
Proof.
  set (s := v_setup v).
  rewrite (rsum_ext (s_niw s) _ (fun k => rsum (s_nw s) (fun i => rsum (s_nw s) (fun j => h i * (s_dw s i * s_dw s j * s_K s k i * s_K s k j * s_E s k) * h j)))).
  - symmetry. rewrite rsum_swap. apply rsum_ext. intros i _. rewrite rsum_swap. apply rsum_ext. intros j _. unfold d2chi2. fold s.
    rewrite <- rsum_scal, <- rsum_scal_r. reflexivity.
  - intros k _. unfold fit_at. rewrite integral_dw. fold (s_dw s).
    replace (rsum (s_nw s) (fun i => s_dw s i * (s_K s k i * h i)) ^ 2) with (rsum (s_nw s) (fun i => s_dw s i * (s_K s k i * h i)) * rsum (s_nw s) (fun i => s_dw s i * (s_K s k i * h i))) by ring.
    rewrite <- rsum_scal_r, <- rsum_scal. apply rsum_ext. intros i _. rewrite <- rsum_scal, <- rsum_scal. apply rsum_ext. intros; ring.
Qed.
Lemma d2_hessian v A : is_half_hessian (v_setup v) A (d2chi2 v).
Proof.
  set (s := v_setup v).
  exists (fun l => - 2 * rsum (s_niw s) (fun k => s_E s k * (s_data s k - fit_at s (s_K s) A k) * (s_dw s l * s_K s k l))). intros h.
  pose proof (misfit_expand v (s_K s) A (fun l => A l + h l)) as X. cbv zeta in X. fold s in X.
  rewrite X. pose proof (d2_form v h) as Y. fold s in Y. rewrite Y. clear X Y.
  assert (F : forall k, fit_at s (s_K s) (fun l => A l + h l - A l) k = fit_at s (s_K s) h k).
  { intros k. apply fit_ext. intros l _. ring. }
  rewrite (rsum_ext (s_niw s) (fun k => s_E s k * fit_at s (s_K s) (fun l => A l + h l - A l) k ^ 2) (fun k => s_E s k * fit_at s (s_K s) h k ^ 2)) by (intros; rewrite F; reflexivity).
  f_equal. unfold Rminus at 1. f_equal.
  rewrite (rsum_ext (s_nw s) _ (fun l => rsum (s_niw s) (fun k => - 2 * (s_E s k * (s_data s k - fit_at s (s_K s) A k) * (s_dw s l * (s_K s k l * h l)))))).
  2: { intros l _. rewrite Rmult_assoc, <- rsum_scal_r, <- rsum_scal. apply rsum_ext. intros; ring. }
  rewrite rsum_swap. rewrite <- Ropp_mult_distr_l_reverse. replace (- (2)) with (-2) by lra. rewrite <- rsum_scal. apply rsum_ext. intros k _. rewrite rsum_scal. rewrite F. unfold resid. fold s.
  unfold fit_at at 2. rewrite integral_dw. fold (s_dw s). rewrite rsum_scal. ring.
Qed.

(** second derivative of the entropy *)
Lemma set_at_here A i y : set_at A i y i = y.
Proof. unfold set_at. rewrite Nat.eqb_refl. reflexivity. Qed.
Lemma deriv_entropy s A i (d : R -> R) y : (i < s_nw s)%nat -> derivable_pt_lim (sig_of s i) y (d y) ->
  derivable_pt_lim (fun x => entropy_of s (set_at A i x)) y (s_dw s i * d y).
Proof.
  intros Hi Hd.
  apply (derivable_pt_lim_ext (fun x => rsum (s_nw s) (fun l => s_dw s l * sig_of s l (set_at A i x l)))).
  { intros x. rewrite entropy_ofE, integral_dw. reflexivity. }
  replace (s_dw s i * d y) with (rsum (s_nw s) (fun l => (s_dw s i * d y) * (if Nat.eqb l i then 1 else 0))) by (rewrite (pick (s_nw s) (fun _ => s_dw s i * d y) i Hi); reflexivity).
  apply deriv_rsum. intros l Hl. unfold set_at. destruct (Nat.eqb_spec l i) as [->|N].
  - rewrite Rmult_1_r. apply (derivable_pt_lim_scal (sig_of s i)). exact Hd.
  - rewrite Rmult_0_r. apply derivable_pt_lim_const.
Qed.
Lemma deriv_sig_pos D y : 0 < D -> 0 < y -> derivable_pt_lim (sig_pos D) y (- ln (y / D)).
Proof.
  intros HD Hy. unfold sig_pos.
  assert (L : derivable_pt_lim (fun x => ln (x / D)) y (/ y)).
  { replace (/ y) with (/ (y / D) * (1 * / D)) by (field; lra).
    apply (derivable_pt_lim_comp (fun x => x * / D) ln).
    - replace (1 * / D) with (1 * / D + y * 0) by ring. apply (derivable_pt_lim_mult (fun x => x) (fun _ => / D)); [apply derivable_pt_lim_id|apply derivable_pt_lim_const].
    - apply derivable_pt_lim_ln. apply Rdiv_lt_0_compat; assumption. }
  replace (- ln (y / D)) with ((1 - 0) - (1 * ln (y / D) + y * / y)) by (field; lra).
  apply (derivable_pt_lim_minus (fun x => x - D) (fun x => x * ln (x / D))).
  - apply (derivable_pt_lim_minus (fun x => x) (fun _ => D)); [apply derivable_pt_lim_id|apply derivable_pt_lim_const].
  - apply (derivable_pt_lim_mult (fun x => x) (fun x => ln (x / D))); [apply derivable_pt_lim_id|exact L].
Qed.
Lemma deriv_neg_ln D y : 0 < D -> 0 < y -> derivable_pt_lim (fun x => - ln (x / D)) y (- / y).
Proof.
  intros HD Hy. apply (derivable_pt_lim_opp (fun x => ln (x / D))).
  replace (/ y) with (/ (y / D) * (1 * / D)) by (field; lra).
  apply (derivable_pt_lim_comp (fun x => x * / D) ln).
  - replace (1 * / D) with (1 * / D + y * 0) by ring. apply (derivable_pt_lim_mult (fun x => x) (fun _ => / D)); [apply derivable_pt_lim_id|apply derivable_pt_lim_const].
  - apply derivable_pt_lim_ln. apply Rdiv_lt_0_compat; assumption.
Qed.
Lemma root_scaled D y : 0 < D -> sqrt ((y / (2 * D)) ^ 2 + 1) = sqrt (y ^ 2 + 4 * D ^ 2) / (2 * D).
Proof.
  intros HD. replace ((y / (2 * D)) ^ 2 + 1) with ((y ^ 2 + 4 * D ^ 2) / (2 * D) ^ 2) by (field; lra).
  rewrite sqrt_div_alt by (apply pow_lt; lra). rewrite sqrt_pow2 by lra. reflexivity.
Qed.
Lemma deriv_arcsinh D y : 0 < D -> derivable_pt_lim (fun x => arcsinh (x / (2 * D))) y (/ sqrt (y ^ 2 + 4 * D ^ 2)).
Proof.
  intros HD. assert (P : 0 < sqrt (y ^ 2 + 4 * D ^ 2)) by (apply sqrt_lt_R0; pose proof (pow2_ge_0 y); assert (0 < D ^ 2) by (apply pow_lt, HD); lra).
  replace (/ sqrt (y ^ 2 + 4 * D ^ 2)) with (/ sqrt ((y / (2 * D)) ^ 2 + 1) * (1 * / (2 * D))) by (rewrite root_scaled by exact HD; field; lra).
  apply (derivable_pt_lim_comp (fun x => x * / (2 * D)) arcsinh).
  - replace (1 * / (2 * D)) with (1 * / (2 * D) + y * 0) by ring. apply (derivable_pt_lim_mult (fun x => x) (fun _ => / (2 * D))); [apply derivable_pt_lim_id|apply derivable_pt_lim_const].
  - apply derivable_pt_lim_arcsinh.
Qed.
Lemma deriv_sig_pn D y : 0 < D -> derivable_pt_lim (sig_pn D) y (- arcsinh (y / (2 * D))).
Proof.
  intros HD. assert (Q : 0 < y ^ 2 + 4 * D ^ 2) by (pose proof (pow2_ge_0 y); assert (0 < D ^ 2) by (apply pow_lt, HD); lra).
  pose proof (sqrt_lt_R0 _ Q) as P. unfold sig_pn.
  replace (- arcsinh (y / (2 * D))) with (((2 * y + 0) * / (2 * sqrt (y ^ 2 + 4 * D ^ 2)) - 0) - (1 * arcsinh (y / (2 * D)) + y * / sqrt (y ^ 2 + 4 * D ^ 2))) by (field; lra).
  apply (derivable_pt_lim_minus (fun x => sqrt (x ^ 2 + 4 * D ^ 2) - 2 * D) (fun x => x * arcsinh (x / (2 * D)))).
  - apply (derivable_pt_lim_minus (fun x => sqrt (x ^ 2 + 4 * D ^ 2)) (fun _ => 2 * D)); [|apply derivable_pt_lim_const].
    rewrite (Rmult_comm (2 * y + 0)). apply (derivable_pt_lim_comp (fun x => x ^ 2 + 4 * D ^ 2) sqrt).
    + apply (derivable_pt_lim_plus (fun x => x ^ 2) (fun _ => 4 * D ^ 2)); [|apply derivable_pt_lim_const].
      replace (2 * y) with (INR 2 * y ^ (pred 2)) by (cbn; ring). apply derivable_pt_lim_pow.
    + apply derivable_pt_lim_sqrt. exact Q.
  - apply (derivable_pt_lim_mult (fun x => x) (fun x => arcsinh (x / (2 * D)))); [apply derivable_pt_lim_id|apply deriv_arcsinh, HD].
Qed.
(** minus the second derivative *)
Definition h_of (s : setup) (A : vec) (i : nat) : R := s_dw s i / (if s_off s then sqrt (A i ^ 2 + 4 * s_model s i ^ 2) else A i).
Lemma h_curvature s A i : sensible s -> (s_off s = false -> 0 < A i) -> (i < s_nw s)%nat -> 0 < h_of s A i /\ entropy_curvature s A i (- h_of s A i).
Proof.
  intros (H2 & HI & HD & HE) HA Hi. pose proof (dw_pos _ _ i H2 HI Hi) as W. specialize (HD i Hi). fold (s_dw s) in W. unfold h_of. destruct (s_off s) eqn:O.
  - assert (Q : 0 < A i ^ 2 + 4 * s_model s i ^ 2) by (pose proof (pow2_ge_0 (A i)); assert (0 < s_model s i ^ 2) by (apply pow_lt, HD); lra).
    pose proof (sqrt_lt_R0 _ Q) as P. split; [apply Rdiv_lt_0_compat; assumption|].
    exists (fun y => s_dw s i * - arcsinh (y / (2 * s_model s i))). split.
    + exists 1. split; [lra|]. intros y _. apply (deriv_entropy s A i (fun y => - arcsinh (y / (2 * s_model s i)))); [exact Hi|]. unfold sig_of. rewrite O. apply deriv_sig_pn, HD.
    + replace (- (s_dw s i / sqrt (A i ^ 2 + 4 * s_model s i ^ 2))) with (s_dw s i * - / sqrt (A i ^ 2 + 4 * s_model s i ^ 2)) by (field; lra).
      apply (derivable_pt_lim_scal (fun y => - arcsinh (y / (2 * s_model s i)))). apply (derivable_pt_lim_opp (fun y => arcsinh (y / (2 * s_model s i)))). apply deriv_arcsinh, HD.
  - specialize (HA eq_refl). split; [apply Rdiv_lt_0_compat; assumption|].
    exists (fun y => s_dw s i * - ln (y / s_model s i)). split.
    + exists (A i). split; [exact HA|]. intros y Hy. apply Rabs_def2 in Hy. apply (deriv_entropy s A i (fun y => - ln (y / s_model s i))); [exact Hi|]. unfold sig_of. rewrite O. apply deriv_sig_pos; [exact HD|lra].
    + replace (- (s_dw s i / A i)) with (s_dw s i * - / A i) by (field; lra).
      apply (derivable_pt_lim_scal (fun y => - ln (y / s_model s i))). apply deriv_neg_ln; assumption.
Qed.
Lemma q_h v A i : sensible (v_setup v) -> (s_off (v_setup v) = false -> 0 < A i) -> (i < s_nw (v_setup v))%nat -> q_of v A i * sqrt (h_of (v_setup v) A i) = 1.
Proof.
  intros OK HA Hi. pose proof OK as (H2 & HI & HD & HE). pose proof (dw_pos _ _ i H2 HI Hi) as W. specialize (HD i Hi). unfold q_of, h_of, s_dw in *. set (s := v_setup v) in *.
  set (w := dw_of (s_nw s) (s_w s) i) in *. destruct (s_off s).
  - assert (Q : 0 < A i ^ 2 + 4 * s_model s i ^ 2) by (pose proof (pow2_ge_0 (A i)); assert (0 < s_model s i ^ 2) by (apply pow_lt, HD); lra).
    pose proof (sqrt_lt_R0 _ Q) as P. set (r := sqrt (A i ^ 2 + 4 * s_model s i ^ 2)) in *.
    replace ((A i ^ 2 + 4 * s_model s i * s_model s i) / w ^ 2) with ((r / w) ^ 2).
    + assert (Z : 0 < r / w) by (apply Rdiv_lt_0_compat; assumption). rewrite <- (Rpower_pow 2 (r / w)) by exact Z. rewrite Rpower_mult. replace (INR 2 * 0.25) with (/ 2) by (cbn; lra). rewrite Rpower_sqrt by exact Z.
      rewrite <- sqrt_mult_alt by (apply Rlt_le; exact Z). replace (r / w * (w / r)) with 1 by (field; lra). apply sqrt_1.
    + unfold Rdiv. rewrite Rpow_mult_distr. unfold r. rewrite pow2_sqrt by lra. rewrite pow_inv. f_equal. ring.
  - specialize (HA eq_refl). assert (Z : 0 < A i / w) by (apply Rdiv_lt_0_compat; assumption). rewrite <- sqrt_mult_alt by (apply Rlt_le; exact Z).
    replace (A i / w * (w / A i)) with 1 by (field; lra). apply sqrt_1.
Qed.
