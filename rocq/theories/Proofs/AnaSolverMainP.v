(** Main results for the maximum-entropy solver. *)
From Coq Require Import Reals Lra Lia List String Bool Sorted.
From Verif Require Import Base.PyBase Base.RSum Model.AnaSolver Spec.AnaSolverSpec Proofs.RSumP Proofs.AnaSolverP Proofs.AnaSolverOptP.
Import ListNotations.
Local Open Scope R_scope.

Lemma root_generic v alpha u : root_of (n_sv v) (compute_f_J v) alpha u ->
  forall m, (m < n_sv v)%nat -> alpha * u m - rsum (s_niw (v_setup v)) (fun k => s_E (v_setup v) k * v_U v k m * v_Xi v m * resid v (kept_kernel v) (singular_to_realspace v u) k) = 0.
Proof.
  intros H m Hm. specialize (H m Hm). unfold compute_f_J in H. unfold singular_to_realspace. destruct (s_off (v_setup v)).
  - rewrite f_off in H. exact H.
  - rewrite f_diag in H. exact H.
Qed.
Definition sig_of (s : setup) (l : nat) (x : R) : R := if s_off s then sig_pn (s_model s l) x else sig_pos (s_model s l) x.
Lemma entropy_ofE s B : entropy_of s B = integral (s_nw s) (s_w s) (fun l => sig_of s l (B l)).
Proof. unfold entropy_of, sig_of. destruct (s_off s); reflexivity. Qed.
Lemma objective_of s Q alpha B : objective s (entropy_of s) Q alpha B = objective s (fun B => integral (s_nw s) (s_w s) (fun l => sig_of s l (B l))) Q alpha B.
Proof. unfold objective. rewrite entropy_ofE. reflexivity. Qed.
Definition okf (s : setup) (x : R) : Prop := s_off s = false -> 0 <= x.
Lemma adm_ok s B : admissible s B -> forall l, (l < s_nw s)%nat -> okf s (B l).
Proof. intros H l Hl F. apply (H F l Hl). Qed.
Lemma sig_le v u l B : sensible (v_setup v) -> (l < s_nw (v_setup v))%nat -> okf (v_setup v) B ->
  sig_of (v_setup v) l B - sig_of (v_setup v) l (singular_to_realspace v u l) + (B - singular_to_realspace v u l) * Vu v u l <= 0.
Proof.
  intros (H2 & Hi & HD & HE) Hl Hok. unfold sig_of, singular_to_realspace, okf in *. destruct (s_off (v_setup v)).
  - apply sig_pn_le. apply HD, Hl.
  - apply sig_pos_le; [apply HD, Hl|apply Hok; reflexivity].
Qed.
Lemma sig_lt v u l B : sensible (v_setup v) -> (l < s_nw (v_setup v))%nat -> okf (v_setup v) B -> B <> singular_to_realspace v u l ->
  sig_of (v_setup v) l B - sig_of (v_setup v) l (singular_to_realspace v u l) + (B - singular_to_realspace v u l) * Vu v u l < 0.
Proof.
  intros (H2 & Hi & HD & HE) Hl Hok. unfold sig_of, singular_to_realspace, okf in *. destruct (s_off (v_setup v)); intros N.
  - apply sig_pn_lt; [apply HD, Hl|exact N].
  - apply sig_pos_lt; [apply HD, Hl|apply Hok; reflexivity|exact N].
Qed.
Lemma optimum v alpha u : sensible (v_setup v) -> 0 < alpha -> root_of (n_sv v) (compute_f_J v) alpha u ->
  forall B, admissible (v_setup v) B ->
  objective (v_setup v) (entropy_of (v_setup v)) (kept_kernel v) alpha B <= objective (v_setup v) (entropy_of (v_setup v)) (kept_kernel v) alpha (singular_to_realspace v u) /\
  (~ same (s_nw (v_setup v)) B (singular_to_realspace v u) ->
   objective (v_setup v) (entropy_of (v_setup v)) (kept_kernel v) alpha B < objective (v_setup v) (entropy_of (v_setup v)) (kept_kernel v) alpha (singular_to_realspace v u)).
Proof.
  intros OK HA HR B HB. rewrite !objective_of.
  apply (opt_lt v OK alpha u HA (singular_to_realspace v u) (sig_of (v_setup v)) (okf (v_setup v)) (root_generic v alpha u HR)).
  - intros; apply sig_le; assumption.
  - intros; apply sig_lt; assumption.
  - apply adm_ok, HB.
Qed.
Lemma gap v alpha u Q : sensible (v_setup v) -> 0 < alpha -> root_of (n_sv v) (compute_f_J v) alpha u ->
  let s := v_setup v in let A := singular_to_realspace v u in
  forall B, admissible s B ->
  objective s (entropy_of s) Q alpha B <= objective s (entropy_of s) Q alpha A
    + rsum (s_niw s) (fun k => s_E s k * ((s_data s k - fit_at s Q A k) * fit_at s Q (fun l => B l - A l) k
        - (s_data s k - fit_at s (kept_kernel v) A k) * fit_at s (kept_kernel v) (fun l => B l - A l) k)).
Proof.
  intros OK HA HR s A B HB. rewrite !objective_of.
  apply (gap_le v OK alpha u HA A Q (sig_of s) (okf s) (root_generic v alpha u HR)).
  - intros; apply sig_le; assumption.
  - apply adm_ok, HB.
Qed.
Lemma A_admissible v u : sensible (v_setup v) -> admissible (v_setup v) (singular_to_realspace v u).
Proof.
  intros (H2 & Hi & HD & HE) F l Hl. unfold singular_to_realspace. rewrite F. unfold singular_to_realspace_diag.
  apply Rlt_le, Rmult_lt_0_compat; [apply HD, Hl|apply exp_pos].
Qed.
Lemma resid_ext v Q A B k : same (s_nw (v_setup v)) A B -> resid v Q A k = resid v Q B k.
Proof. intros H. unfold resid. rewrite (fit_ext _ _ A B k H). reflexivity. Qed.
Lemma unique_root v alpha u u' : sensible (v_setup v) -> 0 < alpha -> root_of (n_sv v) (compute_f_J v) alpha u -> root_of (n_sv v) (compute_f_J v) alpha u' -> same (n_sv v) u u'.
Proof.
  intros OK HA H H'.
  assert (S : same (s_nw (v_setup v)) (singular_to_realspace v u) (singular_to_realspace v u')).
  { intros l Hl. destruct (Req_dec (singular_to_realspace v u l) (singular_to_realspace v u' l)) as [|N]; [assumption|exfalso].
    destruct (optimum v alpha u' OK HA H' _ (A_admissible v u OK)) as [_ X]. destruct (optimum v alpha u OK HA H _ (A_admissible v u' OK)) as [Y _].
    assert (~ same (s_nw (v_setup v)) (singular_to_realspace v u) (singular_to_realspace v u')) as Z by (intros Z; apply N, Z, Hl). specialize (X Z). lra. }
  intros m Hm. pose proof (root_generic v alpha u H m Hm) as X. pose proof (root_generic v alpha u' H' m Hm) as Y.
  rewrite (rsum_ext _ _ (fun k => s_E (v_setup v) k * v_U v k m * v_Xi v m * resid v (kept_kernel v) (singular_to_realspace v u') k)) in X by (intros k _; rewrite (resid_ext v _ _ _ k S); reflexivity).
  apply Rmult_eq_reg_l with alpha; lra.
Qed.

(** the Jacobian *)
Lemma inj_generic v alpha (c x : vec) : sensible (v_setup v) -> 0 < alpha -> (forall l, (l < s_nw (v_setup v))%nat -> 0 <= c l) ->
  (forall m, (m < n_sv v)%nat -> alpha * x m + rsum (s_nw (v_setup v)) (fun l => M2 v m l * (c l * Vu v x l)) = 0) -> forall i, (i < n_sv v)%nat -> x i = 0.
Proof.
  intros (H2 & Hi & HD & HE) HA Hc H. set (s := v_setup v) in *. set (y := fun l => c l * Vu v x l).
  set (phi := fun k => fit_at s (kept_kernel v) y k).
  assert (X : forall m, (m < n_sv v)%nat -> alpha * x m = - rsum (s_niw s) (fun k => s_E s k * v_U v k m * v_Xi v m * phi k)).
  { intros m Hm. specialize (H m Hm). fold y in H. change (fun l => M2 v m l * (c l * Vu v x l)) with (fun l => M2 v m l * y l) in H. unfold s in H. rewrite M2_sum in H. fold s in H. unfold phi. lra. }
  assert (V1 : forall l, alpha * Vu v x l = - rsum (s_niw s) (fun k => s_E s k * phi k * kept_kernel v k l)).
  { intros l. unfold Vu. rewrite <- rsum_scal.
    rewrite (rsum_ext _ _ (fun m => - 1 * rsum (s_niw s) (fun k => s_E s k * phi k * (v_U v k m * v_Xi v m * v_V v l m)))).
    2: { intros m Hm. replace (alpha * (v_V v l m * x m)) with (v_V v l m * (alpha * x m)) by ring. rewrite (X m Hm).
         rewrite <- rsum_scal. replace (v_V v l m * - rsum (s_niw s) (fun k => s_E s k * v_U v k m * v_Xi v m * phi k)) with (- v_V v l m * rsum (s_niw s) (fun k => s_E s k * v_U v k m * v_Xi v m * phi k)) by ring.
         rewrite <- rsum_scal. apply rsum_ext. intros k _. ring. }
    rewrite rsum_scal, rsum_swap. rewrite (rsum_ext (s_niw s) _ (fun k => s_E s k * phi k * kept_kernel v k l)) by (intros k _; rewrite rsum_scal; reflexivity). ring. }
  assert (Y : alpha * rsum (s_nw s) (fun l => s_dw s l * (c l * Vu v x l ^ 2)) = - rsum (s_niw s) (fun k => s_E s k * phi k ^ 2)).
  { rewrite <- rsum_scal.
    rewrite (rsum_ext _ _ (fun l => rsum (s_niw s) (fun k => - (s_E s k * phi k) * (s_dw s l * (kept_kernel v k l * y l))))).
    2: { intros l _. replace (alpha * (s_dw s l * (c l * Vu v x l ^ 2))) with (s_dw s l * y l * (alpha * Vu v x l)) by (unfold y; ring). rewrite V1.
         replace (s_dw s l * y l * - rsum (s_niw s) (fun k => s_E s k * phi k * kept_kernel v k l)) with (- (s_dw s l * y l) * rsum (s_niw s) (fun k => s_E s k * phi k * kept_kernel v k l)) by ring.
         rewrite <- rsum_scal. apply rsum_ext. intros k _. ring. }
    rewrite rsum_swap. replace (- rsum (s_niw s) (fun k => s_E s k * phi k ^ 2)) with (- 1 * rsum (s_niw s) (fun k => s_E s k * phi k ^ 2)) by ring.
    rewrite <- rsum_scal. apply rsum_ext. intros k _. rewrite rsum_scal. unfold s. rewrite <- fit_atE. fold s. fold (phi k). ring. }
  assert (P1 : 0 <= rsum (s_nw s) (fun l => s_dw s l * (c l * Vu v x l ^ 2))).
  { apply rsum_nonneg. intros l Hl. apply Rmult_le_pos; [apply Rlt_le, dw_pos; assumption|]. apply Rmult_le_pos; [apply Hc, Hl|apply pow2_ge_0]. }
  assert (P2 : forall k, (k < s_niw s)%nat -> 0 <= s_E s k * phi k ^ 2) by (intros k Hk; apply Rmult_le_pos; [apply HE, Hk|apply pow2_ge_0]).
  assert (Z : rsum (s_niw s) (fun k => s_E s k * phi k ^ 2) = 0) by (pose proof (rsum_nonneg _ _ P2); nra).
  pose proof (rsum_zero_inv _ _ P2 Z) as Z'.
  intros i Hi'. apply Rmult_eq_reg_l with alpha; [|lra]. rewrite (X i Hi'), rsum_zero; [ring|]. intros k Hk. specialize (Z' k Hk).
  assert (s_E s k * phi k = 0) as T. { destruct (Rmult_integral _ _ Z') as [A|A]; [rewrite A; ring|]. assert (phi k = 0) as B by nra. rewrite B. ring. }
  replace (s_E s k * v_U v k i * v_Xi v i * phi k) with (s_E s k * phi k * (v_U v k i * v_Xi v i)) by ring. rewrite T. ring.
Qed.
Definition weight_of (v : solver) (u : vec) (l : nat) : R :=
  if s_off (v_setup v) then s_model (v_setup v) l * exp (Vu v u l) + s_model (v_setup v) l / exp (Vu v u l) else s_model (v_setup v) l * exp (Vu v u l).
Lemma jac_apply v u alpha x m : (m < n_sv v)%nat ->
  rsum (n_sv v) (fun i => snd (compute_f_J v u alpha) m i * x i) = alpha * x m + rsum (s_nw (v_setup v)) (fun l => M2 v m l * (weight_of v u l * Vu v x l)).
Proof.
  intros Hm.
  assert (J : forall i, snd (compute_f_J v u alpha) m i = alpha * eye m i + rsum (s_nw (v_setup v)) (fun l => M2 v m l * weight_of v u l * v_V v l i)).
  { intros i. unfold compute_f_J, weight_of. destruct (s_off (v_setup v)); cbn [compute_f_J_offdiag compute_f_J_diag snd]; f_equal; apply rsum_ext; intros l _.
    - unfold M3. ring.
    - unfold W3. rewrite W2E. ring. }
  rewrite (rsum_ext _ _ (fun i => alpha * (eye m i * x i) + rsum (s_nw (v_setup v)) (fun l => M2 v m l * weight_of v u l * v_V v l i * x i))).
  2: { intros i _. rewrite J, rsum_scal_r. ring. }
  rewrite rsum_plus, rsum_scal. f_equal.
  - f_equal. rewrite (rsum_single _ _ m Hm); [unfold eye; rewrite Nat.eqb_refl; ring|]. intros i _ N. unfold eye. replace (Nat.eqb m i) with false by (symmetry; apply Nat.eqb_neq; lia). ring.
  - rewrite rsum_swap. apply rsum_ext. intros l _. unfold Vu. rewrite <- rsum_scal, <- rsum_scal. apply rsum_ext. intros i _. ring.
Qed.
Lemma jac_injective v u alpha x : sensible (v_setup v) -> 0 < alpha ->
  (forall m, (m < n_sv v)%nat -> rsum (n_sv v) (fun i => snd (compute_f_J v u alpha) m i * x i) = 0) -> forall i, (i < n_sv v)%nat -> x i = 0.
Proof.
  intros OK HA H. apply (inj_generic v alpha (weight_of v u) x OK HA).
  - intros l Hl. destruct OK as (_ & _ & HD & _). specialize (HD l Hl). pose proof (exp_pos (Vu v u l)). unfold weight_of.
    assert (0 < s_model (v_setup v) l * exp (Vu v u l)) by (apply Rmult_lt_0_compat; assumption).
    assert (0 < s_model (v_setup v) l / exp (Vu v u l)) by (apply Rdiv_lt_0_compat; assumption). destruct (s_off (v_setup v)); lra.
  - intros m Hm. rewrite <- (jac_apply v u alpha x m Hm). apply H, Hm.
Qed.
Lemma jac v u alpha m i : (i < n_sv v)%nat ->
  derivable_pt_lim (fun x => fst (compute_f_J v (set_at u i x) alpha) m) (u i) (snd (compute_f_J v u alpha) m i).
Proof. intros H. unfold compute_f_J. destruct (s_off (v_setup v)); [apply jac_off|apply jac_diag]; exact H. Qed.
