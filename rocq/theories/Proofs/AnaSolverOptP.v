(** The optimum of the maximum-entropy functional. *)
From Coq Require Import Reals Lra Lia List.
From Verif Require Import Base.PyBase Base.RSum Model.AnaSolver Spec.AnaSolverSpec Proofs.RSumP Proofs.AnaSolverP.
Import ListNotations.
Local Open Scope R_scope.

Section S.
Variable v : solver.
Let s := v_setup v.
Let nw := s_nw s. Let niw := s_niw s. Let K := s_K s. Let E := s_E s. Let G := s_data s. Let D := s_model s. Let dw := s_dw s.
Let n := n_sv v. Let U := v_U v. Let Xi := v_Xi v. Let V := v_V v.
Let kept := kept_kernel v.

Lemma fit_atE Q B k : fit_at s Q B k = rsum nw (fun l => dw l * (Q k l * B l)).
Proof. apply integral_dw. Qed.
Lemma M2E m l : M2 v m l = rsum niw (fun k => E k * U k m * Xi m * (dw l * kept k l)).
Proof.
  unfold M2. apply rsum_ext. intros k _. unfold kept, kept_kernel. rewrite <- rsum_scal, <- rsum_scal. apply rsum_ext. intros j _.
  unfold E, U, Xi, dw, s. ring.
Qed.
Lemma W2E m l : W2 v m l = M2 v m l * D l.
Proof. unfold W2, M2. rewrite <- rsum_scal_r. apply rsum_ext. intros k _. rewrite <- rsum_scal_r. apply rsum_ext. intros j _. reflexivity. Qed.
Lemma M2_sum m A : rsum nw (fun l => M2 v m l * A l) = rsum niw (fun k => E k * U k m * Xi m * fit_at s kept A k).
Proof.
  rewrite (rsum_ext nw _ (fun l => rsum niw (fun k => E k * U k m * Xi m * (dw l * (kept k l * A l))))).
  2: { intros l _. rewrite M2E, <- rsum_scal_r. apply rsum_ext. intros k _. ring. }
  rewrite rsum_swap. apply rsum_ext. intros k _. rewrite fit_atE, <- rsum_scal. reflexivity.
Qed.
Definition resid (Q : mat) (A : vec) (k : nat) : R := G k - fit_at s Q A k.
Lemma EviE m : Evi v m = rsum niw (fun k => E k * U k m * Xi m * G k).
Proof. unfold Evi. apply rsum_ext. intros k _. unfold E, U, Xi, G, s. ring. Qed.
Lemma f_generic alpha u A m : alpha * u m + rsum nw (fun l => M2 v m l * A l) - Evi v m = alpha * u m - rsum niw (fun k => E k * U k m * Xi m * resid kept A k).
Proof.
  rewrite M2_sum, EviE. unfold resid.
  rewrite (rsum_ext niw (fun k => E k * U k m * Xi m * (G k - fit_at s kept A k)) (fun k => E k * U k m * Xi m * G k - E k * U k m * Xi m * fit_at s kept A k)) by (intros; ring).
  rewrite rsum_minus. ring.
Qed.
Lemma f_diag alpha u m : fst (compute_f_J_diag v u alpha) m = alpha * u m - rsum niw (fun k => E k * U k m * Xi m * resid kept (singular_to_realspace_diag v u) k).
Proof.
  rewrite <- f_generic. cbn [compute_f_J_diag fst]. f_equal. f_equal. apply rsum_ext. intros l _. rewrite W2E. unfold singular_to_realspace_diag, D, s. ring.
Qed.
Lemma f_off alpha u m : fst (compute_f_J_offdiag v u alpha) m = alpha * u m - rsum niw (fun k => E k * U k m * Xi m * resid kept (singular_to_realspace_offdiag v u) k).
Proof. rewrite <- f_generic. reflexivity. Qed.
Lemma root_Vu alpha u A l : (forall m, (m < n)%nat -> alpha * u m - rsum niw (fun k => E k * U k m * Xi m * resid kept A k) = 0) ->
  alpha * Vu v u l = rsum niw (fun k => E k * resid kept A k * kept k l).
Proof.
  intros H. unfold Vu. rewrite <- rsum_scal. fold n.
  rewrite (rsum_ext n _ (fun m => rsum niw (fun k => E k * resid kept A k * (U k m * Xi m * V l m)))).
  2: { intros m Hm. specialize (H m Hm). replace (alpha * (v_V v l m * u m)) with (V l m * (alpha * u m)) by (unfold V; ring).
       replace (alpha * u m) with (rsum niw (fun k => E k * U k m * Xi m * resid kept A k)) by lra. rewrite <- rsum_scal. apply rsum_ext. intros k _. ring. }
  rewrite rsum_swap. apply rsum_ext. intros k _. rewrite rsum_scal. reflexivity.
Qed.
Lemma fit_minus Q A B k : fit_at s Q (fun l => B l - A l) k = fit_at s Q B k - fit_at s Q A k.
Proof. rewrite !fit_atE, <- rsum_minus. apply rsum_ext. intros l _. ring. Qed.
Lemma misfit_expand Q A B : misfit s Q B = misfit s Q A - 2 * rsum niw (fun k => E k * resid Q A k * fit_at s Q (fun l => B l - A l) k)
   + rsum niw (fun k => E k * fit_at s Q (fun l => B l - A l) k ^ 2).
Proof.
  unfold misfit. rewrite <- rsum_scal, <- rsum_minus, <- rsum_plus. apply rsum_ext. intros k _. rewrite fit_minus. unfold resid, E, G. ring.
Qed.
Lemma cross alpha u A B : (forall m, (m < n)%nat -> alpha * u m - rsum niw (fun k => E k * U k m * Xi m * resid kept A k) = 0) ->
  rsum niw (fun k => E k * resid kept A k * fit_at s kept (fun l => B l - A l) k) = alpha * rsum nw (fun l => dw l * ((B l - A l) * Vu v u l)).
Proof.
  intros H. rewrite <- rsum_scal.
  rewrite (rsum_ext nw _ (fun l => rsum niw (fun k => E k * resid kept A k * (dw l * (kept k l * (B l - A l)))))).
  2: { intros l _. replace (alpha * (dw l * ((B l - A l) * Vu v u l))) with (dw l * (B l - A l) * (alpha * Vu v u l)) by ring.
       rewrite (root_Vu alpha u A l H), <- rsum_scal. apply rsum_ext. intros k _. ring. }
  rewrite rsum_swap. apply rsum_ext. intros k _. rewrite rsum_scal, fit_atE. reflexivity.
Qed.
Lemma gap_eq alpha u A B Q (sig : nat -> R -> R) :
  (forall m, (m < n)%nat -> alpha * u m - rsum niw (fun k => E k * U k m * Xi m * resid kept A k) = 0) ->
  objective s (fun B => integral nw (s_w s) (fun l => sig l (B l))) Q alpha B =
  objective s (fun B => integral nw (s_w s) (fun l => sig l (B l))) Q alpha A
  + alpha * rsum nw (fun l => dw l * (sig l (B l) - sig l (A l) + (B l - A l) * Vu v u l))
  - / 2 * rsum niw (fun k => E k * fit_at s Q (fun l => B l - A l) k ^ 2)
  + rsum niw (fun k => E k * (resid Q A k * fit_at s Q (fun l => B l - A l) k - resid kept A k * fit_at s kept (fun l => B l - A l) k)).
Proof.
  intros H. unfold objective. rewrite (misfit_expand Q A B), !integral_dw. fold nw.
  change (dw_of nw (s_w s)) with dw.
  rewrite (rsum_ext niw (fun k => E k * (resid Q A k * fit_at s Q (fun l => B l - A l) k - resid kept A k * fit_at s kept (fun l => B l - A l) k))
    (fun k => E k * resid Q A k * fit_at s Q (fun l => B l - A l) k - E k * resid kept A k * fit_at s kept (fun l => B l - A l) k)) by (intros; ring).
  rewrite rsum_minus, (cross alpha u A B H).
  rewrite (rsum_ext nw (fun l => dw l * (sig l (B l) - sig l (A l) + (B l - A l) * Vu v u l))
    (fun l => dw l * sig l (B l) - dw l * sig l (A l) + dw l * ((B l - A l) * Vu v u l))) by (intros; ring).
  rewrite rsum_plus, rsum_minus. lra.
Qed.
End S.

(** pointwise inequalities *)
Definition sig_pos (D x : R) : R := x - D - x * ln (x / D).
Lemma sig_pos_lt D t B : 0 < D -> 0 <= B -> B <> D * exp t -> sig_pos D B - sig_pos D (D * exp t) + (B - D * exp t) * t < 0.
Proof.
  intros HD HB N. unfold sig_pos. replace (D * exp t / D) with (exp t) by (field; lra). rewrite ln_exp. pose proof (exp_pos t).
  assert (0 < D * exp t) by (apply Rmult_lt_0_compat; assumption).
  destruct (Req_dec B 0) as [->|NB]; [rewrite Rmult_0_l; lra|].
  assert (HB' : 0 < B / D) by (apply Rdiv_lt_0_compat; lra). set (b := ln (B / D)). assert (EB : B = D * exp b) by (unfold b; rewrite exp_ln by exact HB'; field; lra).
  assert (Nb : t - b <> 0). { intros Z. apply N. rewrite EB. f_equal. f_equal. lra. }
  pose proof (exp_ineq1 _ Nb) as X. rewrite EB.
  replace (exp t) with (exp b * exp (t - b)) by (rewrite <- exp_plus; f_equal; lra).
  assert (P : 0 < D * exp b) by (apply Rmult_lt_0_compat; [assumption|apply exp_pos]).
  assert (0 < D * exp b * (exp (t - b) - (1 + (t - b)))) by (apply Rmult_lt_0_compat; lra). nra.
Qed.
Lemma sig_pos_le D t B : 0 < D -> 0 <= B -> sig_pos D B - sig_pos D (D * exp t) + (B - D * exp t) * t <= 0.
Proof. intros HD HB. destruct (Req_dec B (D * exp t)) as [->|N]; [lra|]. apply Rlt_le, sig_pos_lt; assumption. Qed.

Definition sig_pn (D x : R) : R := sqrt (x ^ 2 + 4 * D ^ 2) - 2 * D - x * arcsinh (x / (2 * D)).
Lemma pn_sqrt D t : 0 < D -> sqrt ((D * exp t - D / exp t) ^ 2 + 4 * D ^ 2) = D * exp t + D / exp t.
Proof.
  intros HD. pose proof (exp_pos t). replace ((D * exp t - D / exp t) ^ 2 + 4 * D ^ 2) with ((D * exp t + D / exp t) * (D * exp t + D / exp t)) by (field; lra).
  apply sqrt_square. assert (0 < D / exp t) by (apply Rdiv_lt_0_compat; assumption). assert (0 < D * exp t) by (apply Rmult_lt_0_compat; assumption). lra.
Qed.
Lemma pn_arcsinh D t : 0 < D -> arcsinh ((D * exp t - D / exp t) / (2 * D)) = t.
Proof.
  intros HD. pose proof (exp_pos t). replace ((D * exp t - D / exp t) / (2 * D)) with (sinh t); [apply arcsinh_sinh|]. unfold sinh. rewrite exp_Ropp. field. lra.
Qed.
Lemma pn_param D B : 0 < D -> B = D * exp (arcsinh (B / (2 * D))) - D / exp (arcsinh (B / (2 * D))).
Proof.
  intros HD. set (b := arcsinh (B / (2 * D))). assert (X : sinh b = B / (2 * D)) by apply sinh_arcsinh. unfold sinh in X. rewrite exp_Ropp in X.
  pose proof (exp_pos b). replace (D * exp b - D / exp b) with (2 * D * ((exp b - / exp b) / 2)) by (field; lra). rewrite X. field. lra.
Qed.
Lemma sig_pn_lt D t B : 0 < D -> B <> D * exp t - D / exp t -> sig_pn D B - sig_pn D (D * exp t - D / exp t) + (B - (D * exp t - D / exp t)) * t < 0.
Proof.
  intros HD. rewrite (pn_param D B HD) at 1 2 3. set (b := arcsinh (B / (2 * D))). intros N. unfold sig_pn. rewrite !pn_sqrt, !pn_arcsinh by exact HD.
  assert (Nb : t - b <> 0). { intros Z. apply N. replace b with t by lra. reflexivity. }
  pose proof (exp_ineq1 _ Nb) as X1. assert (Nb' : - (t - b) <> 0) by lra. pose proof (exp_ineq1 _ Nb') as X2.
  unfold Rdiv. rewrite <- !exp_Ropp.
  replace (exp t) with (exp b * exp (t - b)) by (rewrite <- exp_plus; f_equal; lra).
  replace (exp (- t)) with (exp (- b) * exp (- (t - b))) by (rewrite <- exp_plus; f_equal; lra).
  assert (P1 : 0 < D * exp b) by (apply Rmult_lt_0_compat; [assumption|apply exp_pos]).
  assert (P2 : 0 < D * exp (- b)) by (apply Rmult_lt_0_compat; [assumption|apply exp_pos]).
  assert (0 < D * exp b * (exp (t - b) - (1 + (t - b)))) by (apply Rmult_lt_0_compat; lra).
  assert (0 < D * exp (- b) * (exp (- (t - b)) - (1 + - (t - b)))) by (apply Rmult_lt_0_compat; lra). nra.
Qed.
Lemma sig_pn_le D t B : 0 < D -> sig_pn D B - sig_pn D (D * exp t - D / exp t) + (B - (D * exp t - D / exp t)) * t <= 0.
Proof. intros HD. destruct (Req_dec B (D * exp t - D / exp t)) as [->|N]; [lra|]. apply Rlt_le, sig_pn_lt; assumption. Qed.

Lemma fit_ext s Q A B k : same (s_nw s) A B -> fit_at s Q A k = fit_at s Q B k.
Proof. intros H. unfold fit_at. rewrite !integral_dw. apply rsum_ext. intros l Hl. rewrite (H l Hl). reflexivity. Qed.

Section T.
Variable v : solver.
Let s := v_setup v.
Hypothesis OK : sensible s.
Variables (alpha : R) (u : vec).
Hypothesis HA : 0 < alpha.
Lemma gap_le A Q sig (ok : R -> Prop) :
  (forall m, (m < n_sv v)%nat -> alpha * u m - rsum (s_niw s) (fun k => s_E s k * v_U v k m * v_Xi v m * resid v (kept_kernel v) A k) = 0) ->
  (forall l B, (l < s_nw s)%nat -> ok B -> sig l B - sig l (A l) + (B - A l) * Vu v u l <= 0) ->
  forall B, (forall l, (l < s_nw s)%nat -> ok (B l)) ->
  objective s (fun B => integral (s_nw s) (s_w s) (fun l => sig l (B l))) Q alpha B <=
  objective s (fun B => integral (s_nw s) (s_w s) (fun l => sig l (B l))) Q alpha A
  + rsum (s_niw s) (fun k => s_E s k * (resid v Q A k * fit_at s Q (fun l => B l - A l) k - resid v (kept_kernel v) A k * fit_at s (kept_kernel v) (fun l => B l - A l) k)).
Proof.
  intros H Hs B HB. destruct OK as (H2 & Hi & HD & HE). unfold s in *. rewrite (gap_eq v alpha u A B Q sig H).
  assert (X1 : rsum (s_nw (v_setup v)) (fun l => s_dw (v_setup v) l * (sig l (B l) - sig l (A l) + (B l - A l) * Vu v u l)) <= 0).
  { apply rsum_nonpos. intros l Hl. specialize (Hs l (B l) Hl (HB l Hl)). pose proof (dw_pos _ _ l H2 Hi Hl) as P. unfold s_dw. nra. }
  assert (X2 : 0 <= rsum (s_niw (v_setup v)) (fun k => s_E (v_setup v) k * fit_at (v_setup v) Q (fun l => B l - A l) k ^ 2)).
  { apply rsum_nonneg. intros k Hk. apply Rmult_le_pos; [apply HE; exact Hk|apply pow2_ge_0]. }
  nra.
Qed.
Lemma opt_lt A sig (ok : R -> Prop) :
  (forall m, (m < n_sv v)%nat -> alpha * u m - rsum (s_niw s) (fun k => s_E s k * v_U v k m * v_Xi v m * resid v (kept_kernel v) A k) = 0) ->
  (forall l B, (l < s_nw s)%nat -> ok B -> sig l B - sig l (A l) + (B - A l) * Vu v u l <= 0) ->
  (forall l B, (l < s_nw s)%nat -> ok B -> B <> A l -> sig l B - sig l (A l) + (B - A l) * Vu v u l < 0) ->
  forall B, (forall l, (l < s_nw s)%nat -> ok (B l)) ->
  (objective s (fun B => integral (s_nw s) (s_w s) (fun l => sig l (B l))) (kept_kernel v) alpha B <=
   objective s (fun B => integral (s_nw s) (s_w s) (fun l => sig l (B l))) (kept_kernel v) alpha A) /\
  (~ same (s_nw s) B A ->
   objective s (fun B => integral (s_nw s) (s_w s) (fun l => sig l (B l))) (kept_kernel v) alpha B <
   objective s (fun B => integral (s_nw s) (s_w s) (fun l => sig l (B l))) (kept_kernel v) alpha A).
Proof.
  intros H Hs Hl' B HB.
  assert (Z : rsum (s_niw s) (fun k => s_E s k * (resid v (kept_kernel v) A k * fit_at s (kept_kernel v) (fun l => B l - A l) k - resid v (kept_kernel v) A k * fit_at s (kept_kernel v) (fun l => B l - A l) k)) = 0).
  { apply rsum_zero. intros; ring. }
  split.
  - pose proof (gap_le A (kept_kernel v) sig ok H Hs B HB) as X. rewrite Z in X. lra.
  - intros N. destruct OK as (H2 & Hi & HD & HE). unfold s in *. rewrite (gap_eq v alpha u A B (kept_kernel v) sig H), Z.
    assert (X1 : exists j, (j < s_nw (v_setup v))%nat /\ B j <> A j).
    { clear -N. unfold same in N. revert N. generalize (s_nw (v_setup v)) as q. induction q as [|q IH]; intros N; [exfalso; apply N; intros; lia|].
      destruct (Req_dec (B q) (A q)) as [Eq|Ne]; [|exists q; split; [lia|exact Ne]]. destruct IH as (j & Hj & X).
      - intros Y. apply N. intros l Hl. destruct (Nat.eq_dec l q) as [->|]; [exact Eq|apply Y; lia].
      - exists j. split; [lia|exact X]. }
    destruct X1 as (j & Hj & Nj).
    assert (X2 : rsum (s_nw (v_setup v)) (fun l => s_dw (v_setup v) l * (sig l (B l) - sig l (A l) + (B l - A l) * Vu v u l)) < 0).
    { replace 0 with (rsum (s_nw (v_setup v)) (fun _ => 0)) by (apply rsum_zero; reflexivity). apply rsum_lt with j.
      - intros l Hl. specialize (Hs l (B l) Hl (HB l Hl)). pose proof (dw_pos _ _ l H2 Hi Hl) as P. unfold s_dw. nra.
      - exact Hj.
      - specialize (Hl' j (B j) Hj (HB j Hj) Nj). pose proof (dw_pos _ _ j H2 Hi Hj) as P. unfold s_dw. nra. }
    assert (X3 : 0 <= rsum (s_niw (v_setup v)) (fun k => s_E (v_setup v) k * fit_at (v_setup v) (kept_kernel v) (fun l => B l - A l) k ^ 2)).
    { apply rsum_nonneg. intros k Hk. apply Rmult_le_pos; [apply HE; exact Hk|apply pow2_ge_0]. }
    nra.
Qed.
End T.
