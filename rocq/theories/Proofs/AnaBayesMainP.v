(** The criterion at the weight found, and the search that never ends. *)
From Coq Require Import Reals Lra Lia List String.
From Verif Require Import Base.PyBase Base.RSum Model.AnaSolver Model.AnaAlpha Model.AnaBayes Spec.AnaSolverSpec Spec.AnaAlphaSpec Spec.AnaBayesSpec Proofs.RSumP Proofs.AnaSolverP Proofs.AnaSolverOptP Proofs.AnaSolverMainP Proofs.AnaSolverRepP Proofs.AnaBayesEigP Proofs.AnaBayesP Proofs.AnaBayesTraceP Proofs.AnaBayesClassicP.
Import ListNotations.
Local Open Scope R_scope.

Lemma entropy_ext s A B : same (s_nw s) A B -> entropy_of s A = entropy_of s B.
Proof. intros H. rewrite !entropy_ofE, !integral_dw. apply rsum_ext. intros l Hl. rewrite (H l Hl). reflexivity. Qed.
Lemma real_ext v u u' : same (n_sv v) u u' -> same (s_nw (v_setup v)) (singular_to_realspace v u) (singular_to_realspace v u').
Proof.
  intros H l _. pose proof (Vu_ext v u u' l (fun m Hm => H m Hm)) as X. unfold singular_to_realspace, singular_to_realspace_diag, singular_to_realspace_offdiag. destruct (s_off (v_setup v)); cbv zeta; rewrite X; reflexivity.
Qed.
Lemma opt_root newton lm blur v o alpha us r : finds_roots newton v -> finds_roots lm v -> 0 < alpha -> maxent_optimization newton lm blur v o alpha us = Ok r -> root_of (n_sv v) (compute_f_J v) alpha (r_u r).
Proof.
  intros H1 H2 Ha. unfold maxent_optimization. destruct (String.eqb o "newton") eqn:E1; [|destruct (String.eqb o "scipy_lm") eqn:E2; [|discriminate]].
  - destruct (newton _ _ _ _) as [u|e] eqn:E; cbn [bind]; [|discriminate]. destruct blur as [[bw f]|]; [destruct (f _); cbn [bind]; [|discriminate]|cbn [bind]]; intros H; injection H as <-; cbn [r_u]; exact (H1 _ _ _ Ha E).
  - destruct (lm _ _ _ _) as [u|e] eqn:E; cbn [bind]; [|discriminate]. destruct blur as [[bw f]|]; [destruct (f _); cbn [bind]; [|discriminate]|cbn [bind]]; intros H; injection H as <-; cbn [r_u]; exact (H2 _ _ _ Ha E).
Qed.
Section M.
Variable eigvalsh : nat -> mat -> res vec.
Hypothesis HE : finds_eigenvalues eigvalsh.
Variables (newton lm : nat -> (vec -> R -> vec * mat) -> vec -> R -> res vec) (blur : option (R * (vec -> res vec))) (v : solver) (o : string).
Hypothesis OK : sensible (v_setup v).
Lemma bayes_reported alpha us b : 0 < alpha -> maxent_bayes eigvalsh newton lm blur v o alpha us = Ok b ->
  let A := singular_to_realspace v (r_u (br b)) in
  br_ng b = - 2 * alpha * entropy_of (v_setup v) A /\ 0 <= br_ng b /\ (br_ng b = 0 <-> same (s_nw (v_setup v)) A (featureless (v_setup v))) /\ 0 <= br_tr b /\ br_conv b = ratio (br_tr b) (br_ng b).
Proof.
  intros Ha H A. destruct (bayes_ok eigvalsh newton lm blur v o alpha us b H) as (Hr & lam & E & X1 & X2 & X3 & _).
  destruct (reported newton lm blur v o alpha us (br b) OK Ha Hr) as (Y1 & Y2 & Y3 & Y4 & _).
  destruct (entropy_nonpos (v_setup v) A OK (A_admissible v _ OK)) as [Z1 Z2]. fold A in Y4, E. rewrite X1, Y4. unfold n_good. split; [reflexivity|]. split; [nra|].
  split; [rewrite <- Z2; split; intros Z; [nra|rewrite Z; ring]|]. split; [|rewrite X3, X1, Y4; reflexivity]. rewrite X2. apply trace_nonneg; [exact Ha|].
  apply (eigs_nonneg eigvalsh HE v A lam OK E).
Qed.
(** the results at one weight do not depend on the starting point *)
Lemma bayes_unique alpha us us' b b' : finds_roots newton v -> finds_roots lm v -> (forall A, exists lam, eigvalsh (s_nw (v_setup v)) (lambda_of v A) = Ok lam) -> 0 < alpha ->
  maxent_bayes eigvalsh newton lm blur v o alpha us = Ok b -> maxent_bayes eigvalsh newton lm blur v o alpha us' = Ok b' ->
  br_ng b = br_ng b' /\ br_tr b = br_tr b' /\ br_conv b = br_conv b'.
Proof.
  intros N1 N2 HT Ha H H'. destruct (bayes_reported alpha us b Ha H) as (G & _ & _ & _ & C). destruct (bayes_reported alpha us' b' Ha H') as (G' & _ & _ & _ & C').
  destruct (bayes_ok eigvalsh newton lm blur v o alpha us b H) as (Hr & lam & E & _ & T & _). destruct (bayes_ok eigvalsh newton lm blur v o alpha us' b' H') as (Hr' & lam' & E' & _ & T' & _).
  pose proof (opt_root _ _ _ _ _ _ _ _ N1 N2 Ha Hr) as R1. pose proof (opt_root _ _ _ _ _ _ _ _ N1 N2 Ha Hr') as R2.
  pose proof (real_ext v _ _ (unique_root v alpha _ _ OK Ha R1 R2)) as S.
  assert (Q1 : br_ng b = br_ng b') by (rewrite G, G', (entropy_ext _ _ _ S); reflexivity).
  assert (Q2 : br_tr b = br_tr b').
  { destruct (HT (singular_to_realspace v (r_u (br b)))) as (l & El). destruct (HT (singular_to_realspace v (r_u (br b')))) as (l' & El').
    rewrite (eigs_of eigvalsh v _ l El) in E. rewrite (eigs_of eigvalsh v _ l' El') in E'. injection E as <-. injection E' as <-. rewrite T, T'.
    apply (trace_unique eigvalsh HE v _ _ _ _ alpha OK Ha S El El'). }
  split; [exact Q1|]. split; [exact Q2|]. rewrite C, C', Q1, Q2. reflexivity.
Qed.
Lemma ratio_one tr ng : ratio tr ng = Fin 1 <-> ng <> 0 /\ tr = ng.
Proof.
  unfold ratio. destruct (Req_EM_T ng 0) as [Z|Z].
  - split; [|intros [X _]; contradiction]. destruct (Rlt_dec 0 tr); [discriminate|]. destruct (Rlt_dec tr 0); discriminate.
  - split; [intros H; injection H as H; split; [exact Z|]|intros [_ ->]; f_equal; field; exact Z].
    apply Rmult_eq_reg_r with (/ ng); [|apply Rinv_neq_0_compat; exact Z]. rewrite Rinv_r by exact Z. exact H.
Qed.
(** the root at zero *)
Lemma zero_feat l : (l < s_nw (v_setup v))%nat -> singular_to_realspace v (fun _ => 0) l = featureless (v_setup v) l.
Proof.
  intros Hl. unfold singular_to_realspace, singular_to_realspace_diag, singular_to_realspace_offdiag, featureless.
  assert (X : Vu v (fun _ => 0) l = 0) by (unfold Vu; apply rsum_zero; intros; ring). destruct (s_off (v_setup v)); cbv zeta; rewrite X, exp_0; field.
Qed.
Hypothesis Hdata : forall k, (k < s_niw (v_setup v))%nat -> s_data (v_setup v) k = fit_at (v_setup v) (kept_kernel v) (featureless (v_setup v)) k.
Lemma zero_root alpha : root_of (n_sv v) (compute_f_J v) alpha (fun _ => 0).
Proof.
  intros m Hm. unfold compute_f_J.
  assert (Z : forall A, same (s_nw (v_setup v)) A (featureless (v_setup v)) -> alpha * 0 - rsum (s_niw (v_setup v)) (fun k => s_E (v_setup v) k * v_U v k m * v_Xi v m * resid v (kept_kernel v) A k) = 0).
  { intros A S. rewrite rsum_zero; [ring|]. intros k Hk. rewrite (resid_ext v _ _ _ k S). unfold resid. rewrite (Hdata k Hk). ring. }
  pose proof zero_feat as F. unfold singular_to_realspace in F. destruct (s_off (v_setup v)); [rewrite f_off|rewrite f_diag]; apply Z; intros l Hl; apply F, Hl.
Qed.
Lemma feat_q A i : same (s_nw (v_setup v)) A (featureless (v_setup v)) -> (i < s_nw (v_setup v))%nat -> 0 < q_of v A i.
Proof.
  intros S Hi. pose proof OK as (H2 & HI & HD & _). assert (P : s_off (v_setup v) = false -> 0 < A i).
  { intros F. rewrite (S i Hi). unfold featureless. rewrite F. apply HD, Hi. }
  pose proof (q_h v A i OK P Hi) as Q. destruct (h_curvature (v_setup v) A i OK P Hi) as [Hh _]. pose proof (sqrt_lt_R0 _ Hh).
  destruct (Rle_lt_dec (q_of v A i) 0); [exfalso; nra|assumption].
Qed.
Lemma never_ends sci fuel : blur = None -> finds_roots newton v -> finds_roots lm v -> (o = "newton" \/ o = "scipy_lm")%string ->
  (forall u0 alpha, 0 < alpha -> (exists u, newton (n_sv v) (compute_f_J v) u0 alpha = Ok u) /\ exists u, lm (n_sv v) (compute_f_J v) u0 alpha = Ok u) ->
  (forall A, exists lam, eigvalsh (s_nw (v_setup v)) (lambda_of v A) = Ok lam) ->
  (exists k l, (k < s_niw (v_setup v))%nat /\ (l < s_nw (v_setup v))%nat /\ 0 < s_E (v_setup v) k /\ s_K (v_setup v) k l <> 0) ->
  solve_classic (maxent_bayes eigvalsh newton lm blur v o) sci fuel = None.
Proof.
  intros HB N1 N2 Ho HN HT (k & l & Hk & Hl & PE & PK). apply classic_never. intros j. set (a := weight_k (10 ^ 6) 10 j). assert (Ha : 0 < a) by apply weight_pos.
  assert (X : exists b, maxent_bayes eigvalsh newton lm blur v o a zeros = Ok b).
  { unfold maxent_bayes, maxent_optimization. destruct (HN zeros a Ha) as [(u & Eu) (u' & Eu')].
    assert (Y : exists uu, (if String.eqb o "newton" then newton (n_sv v) (compute_f_J v) zeros a else if String.eqb o "scipy_lm" then lm (n_sv v) (compute_f_J v) zeros a else Raise ValueError) = Ok uu).
    { destruct Ho as [-> | ->]; cbn; eauto. }
    destruct Y as (uu & ->). cbn [bind]. rewrite HB. cbn [bind fst snd r_u]. destruct (HT (singular_to_realspace v uu)) as (lam & Hlam).
    unfold bayes_conv, bayes_conv_offdiag, posterior_probability, eig_or_diag, lambda_of in *. destruct (s_off (v_setup v)); rewrite Hlam; cbn [bind]; eauto. }
  destruct X as (b & Hb). exists b. split; [exact Hb|].
  destruct (bayes_reported a zeros b Ha Hb) as (_ & _ & Gz & _ & C). destruct (bayes_ok eigvalsh newton lm blur v o a zeros b Hb) as (Hr & lam & E & _ & T & _).
  pose proof (opt_root _ _ _ _ _ _ _ _ N1 N2 Ha Hr) as R1.
  assert (S : same (s_nw (v_setup v)) (singular_to_realspace v (r_u (br b))) (featureless (v_setup v))).
  { intros x Hx. rewrite <- zero_feat by exact Hx. apply real_ext; [|exact Hx]. apply (unique_root v a); try assumption. apply zero_root. }
  rewrite C, (proj2 Gz S). unfold ratio. destruct (Req_EM_T 0 0) as [_|]; [|contradiction].
  assert (P : 0 < br_tr b).
  { rewrite T. apply (trace_positive eigvalsh HE v _ lam a l OK Ha E Hl). rewrite lambda_q. pose proof (feat_q _ l S Hl) as Q.
    apply Rmult_lt_0_compat; [apply Rmult_lt_0_compat; [exact Q|]|exact Q]. unfold d2chi2.
    apply Rlt_le_trans with (s_dw (v_setup v) l * s_dw (v_setup v) l * s_K (v_setup v) k l * s_K (v_setup v) k l * s_E (v_setup v) k).
    - pose proof OK as (H2 & HI & _ & _). pose proof (dw_pos _ _ l H2 HI Hl) as W. fold (s_dw (v_setup v)) in W.
      assert (0 < s_K (v_setup v) k l * s_K (v_setup v) k l) by (destruct (Rtotal_order (s_K (v_setup v) k l) 0) as [|[|]]; [nra|contradiction|nra]).
      replace (s_dw (v_setup v) l * s_dw (v_setup v) l * s_K (v_setup v) k l * s_K (v_setup v) k l * s_E (v_setup v) k) with
        ((s_dw (v_setup v) l * s_dw (v_setup v) l) * (s_K (v_setup v) k l * s_K (v_setup v) k l) * s_E (v_setup v) k) by ring.
      apply Rmult_lt_0_compat; [apply Rmult_lt_0_compat; [nra|assumption]|exact PE].
    - pose proof OK as (_ & _ & _ & HEE).
      assert (G : forall m f i, (i < m)%nat -> (forall j, (j < m)%nat -> 0 <= f j) -> f i <= rsum m f).
      { intros m f i Hi Hf. rewrite <- (Rmult_1_r (f i)). pose proof (pick m (fun _ => f i) i Hi) as Pk. cbn beta in Pk. rewrite Rmult_1_r at 1. rewrite <- Pk. apply rsum_le. intros z Hz.
        destruct (Nat.eqb_spec z i) as [->|]; [lra|]. rewrite Rmult_0_r. apply Hf, Hz. }
      apply (G (s_niw (v_setup v)) (fun k => s_dw (v_setup v) l * s_dw (v_setup v) l * s_K (v_setup v) k l * s_K (v_setup v) k l * s_E (v_setup v) k) k Hk).
      intros z Hz. specialize (HEE z Hz). replace (s_dw (v_setup v) l * s_dw (v_setup v) l * s_K (v_setup v) z l * s_K (v_setup v) z l * s_E (v_setup v) z) with
        ((s_dw (v_setup v) l * s_K (v_setup v) z l) ^ 2 * s_E (v_setup v) z) by ring. apply Rmult_le_pos; [apply pow2_ge_0|exact HEE]. }
  destruct (Rlt_dec 0 (br_tr b)); [exact I|contradiction].
Qed.
End M.
