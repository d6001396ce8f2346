(** Proofs about the kernels of the analytic continuation. *)
From Coq Require Import Reals Lra Lia List String Bool.
From Verif Require Import Base.PyBase Base.RSum Model.AnaSolver Model.AnaKernel Spec.AnaSolverSpec Spec.AnaKernelSpec Proofs.RSumP.
Import ListNotations.
Local Open Scope R_scope.

Lemma sumsq_pos a b : a <> 0 \/ b <> 0 -> 0 < a * a + b * b.
Proof. intros [H|H]; pose proof (Rle_0_sqr a); pose proof (Rle_0_sqr b); pose proof (Rlt_0_sqr _ H); unfold Rsqr in *; lra. Qed.
Lemma cinv_some nu om : nu <> 0 \/ om <> 0 -> cinv nu om = Some (- om / (om * om + nu * nu), - nu / (om * om + nu * nu)).
Proof. intros H. unfold cinv. pose proof (sumsq_pos om nu ltac:(tauto)). destruct (Req_EM_T _ 0); [lra|reflexivity]. Qed.
Lemma resolvent_is nu om : nu <> 0 \/ om <> 0 -> resolvent nu om (- om / (om * om + nu * nu), - nu / (om * om + nu * nu)).
Proof. intros H. pose proof (sumsq_pos om nu ltac:(tauto)). unfold resolvent, cmul. cbn. f_equal; field; lra. Qed.
Lemma resolvent_unique nu om z z' : resolvent nu om z -> resolvent nu om z' -> z = z'.
Proof.
  unfold resolvent, cmul. destruct z as [a b], z' as [a' b']. cbn. intros H H'. injection H as H1 H2. injection H' as H1' H2'.
  assert (P : 0 < om * om + nu * nu). { apply sumsq_pos. destruct (Req_EM_T om 0) as [->|]; [|tauto]. destruct (Req_EM_T nu 0) as [->|]; [lra|tauto]. }
  assert (E1 : (om * om + nu * nu) * (a - a') = 0).
  { replace ((om * om + nu * nu) * (a - a')) with (- om * ((- om * a - nu * b) - (- om * a' - nu * b')) + nu * ((- om * b + nu * a) - (- om * b' + nu * a'))) by ring. rewrite H1, H1', H2, H2'. ring. }
  assert (E2 : (om * om + nu * nu) * (b - b') = 0).
  { replace ((om * om + nu * nu) * (b - b')) with (- nu * ((- om * a - nu * b) - (- om * a' - nu * b')) - om * ((- om * b + nu * a) - (- om * b' + nu * a'))) by ring. rewrite H1, H1', H2, H2'. ring. }
  apply Rmult_integral in E1. apply Rmult_integral in E2. f_equal; lra.
Qed.

Lemma area_unique f a b v v' : area f a b v -> area f a b v' -> v = v'.
Proof.
  intros (F & HF & <-) (G & HG & <-).
  assert (D : forall x, derivable_pt_lim (fun y => F y - G y) x 0). { intros x. replace 0 with (f x - f x) by ring. apply (derivable_pt_lim_minus F G x _ _ (HF x) (HG x)). }
  assert (P : derivable (fun y => F y - G y)) by (intros x; exists 0; apply D).
  assert (C : constant (fun y => F y - G y)). { apply (null_derivative_1 _ P). intros x. apply derive_pt_eq_0, D. }
  specialize (C a b). cbn in C. lra.
Qed.
Lemma area_ext f g a b v : (forall x, f x = g x) -> area f a b v -> area g a b v.
Proof. intros E (F & HF & H). exists F. split; [|exact H]. intros x. rewrite <- E. apply HF. Qed.
Lemma area_scal c f a b v : area f a b v -> area (fun x => c * f x) a b (c * v).
Proof.
  intros (F & HF & <-). exists (fun x => c * F x). split; [|ring]. intros x. apply (derivable_pt_lim_scal F c x _ (HF x)).
Qed.
Lemma area_plus f g a b v v' : area f a b v -> area g a b v' -> area (fun x => f x + g x) a b (v + v').
Proof.
  intros (F & HF & <-) (G & HG & <-). exists (fun x => F x + G x). split; [|ring]. intros x. apply (derivable_pt_lim_plus F G x _ _ (HF x) (HG x)).
Qed.
Lemma deriv_lin c x : derivable_pt_lim (fun t => c * t) x c.
Proof. pose proof (derivable_pt_lim_scal id c x 1 (derivable_pt_lim_id x)) as H. rewrite Rmult_1_r in H. exact H. Qed.
Lemma deriv_exp c x : derivable_pt_lim (fun t => exp (c * t)) x (c * exp (c * x)).
Proof. rewrite Rmult_comm. apply (derivable_pt_lim_comp (fun t => c * t) exp x c _ (deriv_lin c x)), derivable_pt_lim_exp. Qed.
Lemma deriv_cos c x : derivable_pt_lim (fun t => cos (c * t)) x (c * - sin (c * x)).
Proof. rewrite Rmult_comm. apply (derivable_pt_lim_comp (fun t => c * t) cos x c _ (deriv_lin c x)), derivable_pt_lim_cos. Qed.
Lemma deriv_sin c x : derivable_pt_lim (fun t => sin (c * t)) x (c * cos (c * x)).
Proof. rewrite Rmult_comm. apply (derivable_pt_lim_comp (fun t => c * t) sin x c _ (deriv_lin c x)), derivable_pt_lim_sin. Qed.
(** integrals of exp(-a t) cos(nu t) and exp(-a t) sin(nu t) *)
Lemma area_cos nu a : a <> 0 \/ nu <> 0 -> let q := a * a + nu * nu in
  area (fun t => cos (nu * t) * exp (- a * t)) 0 1 ((exp (- a) * (- a * cos nu + nu * sin nu) + a) / q).
Proof.
  intros H q. assert (Q : 0 < q) by (apply sumsq_pos; tauto).
  exists (fun t => / q * (exp (- a * t) * (- a * cos (nu * t) + nu * sin (nu * t)))). split.
  - intros x.
    assert (E : cos (nu * x) * exp (- a * x) = / q * ((- a * exp (- a * x)) * (- a * cos (nu * x) + nu * sin (nu * x)) + exp (- a * x) * (- a * (nu * - sin (nu * x)) + nu * (nu * cos (nu * x))))) by (unfold q in *; field; lra).
    rewrite E. apply (derivable_pt_lim_scal _ (/ q) x). apply (derivable_pt_lim_mult (fun t => exp (- a * t)) (fun t => - a * cos (nu * t) + nu * sin (nu * t))); [apply deriv_exp|].
    apply (derivable_pt_lim_plus (fun t => - a * cos (nu * t)) (fun t => nu * sin (nu * t))); [apply (derivable_pt_lim_scal (fun t => cos (nu * t))), deriv_cos|apply (derivable_pt_lim_scal (fun t => sin (nu * t))), deriv_sin].
  - rewrite !Rmult_0_r, exp_0, cos_0, sin_0, !Rmult_1_r. unfold q in *. field. lra.
Qed.
Lemma area_sin nu a : a <> 0 \/ nu <> 0 -> let q := a * a + nu * nu in
  area (fun t => sin (nu * t) * exp (- a * t)) 0 1 ((exp (- a) * (- a * sin nu - nu * cos nu) + nu) / q).
Proof.
  intros H q. assert (Q : 0 < q) by (apply sumsq_pos; tauto).
  exists (fun t => / q * (exp (- a * t) * (- a * sin (nu * t) + - nu * cos (nu * t)))). split.
  - intros x.
    assert (E : sin (nu * x) * exp (- a * x) = / q * ((- a * exp (- a * x)) * (- a * sin (nu * x) + - nu * cos (nu * x)) + exp (- a * x) * (- a * (nu * cos (nu * x)) + - nu * (nu * - sin (nu * x))))) by (unfold q in *; field; lra).
    rewrite E. apply (derivable_pt_lim_scal _ (/ q) x). apply (derivable_pt_lim_mult (fun t => exp (- a * t)) (fun t => - a * sin (nu * t) + - nu * cos (nu * t))); [apply deriv_exp|].
    apply (derivable_pt_lim_plus (fun t => - a * sin (nu * t)) (fun t => - nu * cos (nu * t))); [apply (derivable_pt_lim_scal (fun t => sin (nu * t))), deriv_sin|apply (derivable_pt_lim_scal (fun t => cos (nu * t))), deriv_cos].
  - rewrite !Rmult_0_r, exp_0, cos_0, sin_0, !Rmult_1_r. unfold q in *. field. lra.
Qed.

(** sines and cosines at the Matsubara frequencies *)
Lemma trig_even_nat n : cos (2 * INR n * PI) = 1 /\ sin (2 * INR n * PI) = 0.
Proof. pose proof (cos_period 0 n) as C. pose proof (sin_period 0 n) as S. rewrite Rplus_0_l in C, S. rewrite C, S, cos_0, sin_0. split; reflexivity. Qed.
Lemma trig_even n : cos (even_freq n) = 1 /\ sin (even_freq n) = 0.
Proof.
  unfold even_freq. destruct (Z_le_gt_dec 0 n) as [H|H].
  - rewrite <- (Z2Nat.id n H), <- INR_IZR_INZ. apply trig_even_nat.
  - replace (2 * IZR n * PI) with (- (2 * INR (Z.to_nat (- n)) * PI)).
    + rewrite cos_neg, sin_neg. destruct (trig_even_nat (Z.to_nat (- n))) as [-> ->]. split; [reflexivity|ring].
    + rewrite INR_IZR_INZ, Z2Nat.id by lia. rewrite opp_IZR. ring.
Qed.
Lemma trig_odd n : cos (odd_freq n) = -1 /\ sin (odd_freq n) = 0.
Proof.
  unfold odd_freq. replace ((2 * IZR n + 1) * PI) with (even_freq n + PI) by (unfold even_freq; ring).
  destruct (trig_even n) as [C S]. rewrite neg_cos, neg_sin, C, S. split; ring.
Qed.
Lemma odd_nonzero n : odd_freq n <> 0.
Proof.
  unfold odd_freq. intros H. apply Rmult_integral in H. destruct H as [H|H]; [|pose proof PI_RGT_0; lra].
  rewrite <- mult_IZR, <- plus_IZR in H. apply eq_IZR in H. lia.
Qed.
Lemma even_nonzero n : n <> 0%Z -> even_freq n <> 0.
Proof.
  unfold even_freq. intros Hn H. apply Rmult_integral in H. destruct H as [H|H]; [|pose proof PI_RGT_0; lra].
  rewrite <- mult_IZR in H. apply eq_IZR in H. lia.
Qed.

(** ** Fermions in imaginary time *)
Lemma time_kernel_exact tau om : exp (- om) <= 1.0E8 -> time_kernel tau om = exp (- tau * om) / (1 + exp (- om)).
Proof. intros H. unfold time_kernel. destruct (Rlt_dec _ _); [lra|reflexivity]. Qed.
(** the factor by which the stored value exceeds the true one *)
Definition excess (om : R) : R := if Rlt_dec 1.0E8 (exp (- om)) then 1 + exp om else 1.
Lemma excess_bound om : 1 <= excess om < 1 + 1e-8.
Proof.
  unfold excess. destruct (Rlt_dec _ _) as [L|_]; [|lra]. pose proof (exp_pos om). pose proof (exp_pos (- om)). rewrite exp_Ropp in *.
  assert (exp om < 1e-8); [|lra]. rewrite <- (Rinv_involutive (exp om)) by lra. replace 1e-8 with (/ 1.0E8) by lra. apply Rinv_lt_contravar; [nra|exact L].
Qed.
Lemma time_kernel_excess tau om : time_kernel tau om = excess om * (exp (- tau * om) / (1 + exp (- om))).
Proof.
  unfold time_kernel, excess. destruct (Rlt_dec _ _) as [L|_]; [|ring]. replace (- (tau - 1) * om) with (- tau * om + om) by ring. rewrite exp_plus, exp_Ropp. pose proof (exp_pos om).
  field. split; [|lra]. assert (0 < / exp om) by (apply Rinv_0_lt_compat; lra). lra.
Qed.
Lemma exp_le_1 x : x <= 0 -> exp x <= 1.
Proof. intros [H|H]; [left; pose proof (exp_increasing x 0 H) as E; rewrite exp_0 in E; exact E|rewrite H, exp_0; lra]. Qed.
Lemma time_kernel_range tau om : 0 <= tau <= 1 -> 0 < time_kernel tau om <= 1.
Proof.
  intros Ht. unfold time_kernel. destruct (Rlt_dec _ _) as [L|L].
  - split; [apply exp_pos|]. assert (om < 0). { destruct (Rlt_dec om 0); [assumption|]. assert (exp (- om) <= exp 0) by (destruct (Req_dec om 0) as [->|]; [rewrite Ropp_0; lra|left; apply exp_increasing; lra]). rewrite exp_0 in *. lra. }
    apply exp_le_1. nra.
  - pose proof (exp_pos (- om)). pose proof (exp_pos (- tau * om)). split; [apply Rdiv_lt_0_compat; lra|].
    apply (Rmult_le_reg_r (1 + exp (- om))); [lra|]. unfold Rdiv. rewrite Rmult_assoc, Rinv_l, Rmult_1_r, Rmult_1_l by lra.
    destruct (Rle_dec 0 om) as [P|P].
    + assert (exp (- tau * om) <= 1); [|lra]. apply exp_le_1. nra.
    + assert (exp (- tau * om) <= exp (- om)); [|lra]. destruct (Req_dec (- tau * om) (- om)) as [->|]; [lra|]. left. apply exp_increasing. nra.
Qed.
Lemma time_fermi_transform n om z : resolvent (odd_freq n) om z -> transform (fun t => time_kernel t om) (odd_freq n) (- excess om * fst z, - excess om * snd z).
Proof.
  intros Hz. pose proof (odd_nonzero n) as N. rewrite (resolvent_unique _ _ _ _ Hz (resolvent_is _ _ (or_introl N))).
  set (nu := odd_freq n) in *. destruct (trig_odd n) as [C S]. fold nu in C, S. pose proof (exp_pos (- om)) as P. pose proof (sumsq_pos om nu (or_intror N)) as Q. split; cbn [fst snd].
  - eapply area_ext; [|pose proof (area_scal (excess om / (1 + exp (- om))) _ _ _ _ (area_cos nu om (or_intror N))) as X; cbv zeta in X; rewrite C, S in X;
      match goal with |- area _ _ _ ?v => match type of X with area _ _ _ ?w => replace v with w by (field; lra) end end; exact X].
    intros t. cbn beta. rewrite time_kernel_excess. replace (- om * t) with (- t * om) by ring. field. lra.
  - eapply area_ext; [|pose proof (area_scal (excess om / (1 + exp (- om))) _ _ _ _ (area_sin nu om (or_intror N))) as X; cbv zeta in X; rewrite C, S in X;
      match goal with |- area _ _ _ ?v => match type of X with area _ _ _ ?w => replace v with w by (field; lra) end end; exact X].
    intros t. cbn beta. rewrite time_kernel_excess. replace (- om * t) with (- t * om) by ring. field. lra.
Qed.
