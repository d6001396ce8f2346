(** Blurring of the kernel, and the errors. *)
From Coq Require Import Reals Lra Lia List String Bool.
From Verif Require Import Base.PyBase Base.RSum Model.AnaSolver Model.AnaKernel Spec.AnaSolverSpec Spec.AnaKernelSpec Proofs.RSumP Proofs.AnaKernelP Proofs.AnaKernelBoseP.
Import ListNotations.
Local Open Scope R_scope.

(** the weights of the blurring *)
Definition bweight (j : nat) : R := simpson_coef j / 60 * (exp (-0.5 * ((INR j - 100) / 20) ^ 2) / sqrt (2 * PI)).
Lemma sqrt2pi : 0 < sqrt (2 * PI).
Proof. apply sqrt_lt_R0. pose proof PI_RGT_0. lra. Qed.
Lemma coef_pos j : 0 < simpson_coef j.
Proof. unfold simpson_coef. destruct (_ || _)%bool; [lra|]. destruct (Nat.even j); lra. Qed.
Lemma bweight_pos j : 0 < bweight j.
Proof.
  unfold bweight. pose proof (coef_pos j). pose proof sqrt2pi. apply Rmult_lt_0_compat; [lra|]. apply Rdiv_lt_0_compat; [apply exp_pos|assumption].
Qed.
Lemma coef_sym j : (j <= 200)%nat -> simpson_coef (200 - j) = simpson_coef j.
Proof.
  intros H. unfold simpson_coef. destruct (Nat.eqb_spec j 0) as [->|N]; [reflexivity|]. destruct (Nat.eqb_spec j 200) as [->|M]; [reflexivity|].
  destruct (Nat.eqb_spec (200 - j) 0); [lia|]. destruct (Nat.eqb_spec (200 - j) 200); [lia|]. cbn [orb]. rewrite Nat.even_sub by exact H. replace (Nat.even 200) with true by reflexivity. destruct (Nat.even j); reflexivity.
Qed.
Lemma bweight_sym j : (j <= 200)%nat -> bweight (200 - j) = bweight j.
Proof.
  intros H. unfold bweight. rewrite coef_sym by exact H. rewrite minus_INR by exact H. replace (INR 200) with 200 by (rewrite INR_IZR_INZ; reflexivity).
  do 3 f_equal. field.
Qed.
Lemma point_is b j : w_integration b j = b * (INR j - 100) / 20.
Proof. unfold w_integration. field. Qed.
Lemma simps_weights b f : 0 < b -> simps b (fun j => gaussian b j * f j) = rsum 201 (fun j => bweight j * f j).
Proof.
  intros Hb. unfold simps. apply rsum_ext. intros j _. unfold bweight, gaussian. pose proof sqrt2pi as S. replace (w_integration b j / b) with ((INR j - 100) / 20) by (rewrite point_is; field; lra).
  field. split; lra.
Qed.
Lemma rsum_rev n f : rsum n f = rsum n (fun i => f (n - 1 - i)%nat).
Proof.
  revert f. induction n as [|n IH]; intros f; [reflexivity|]. rewrite rsum_S_first. cbn [rsum]. rewrite Rplus_comm. f_equal; [|f_equal; lia].
  rewrite IH. apply rsum_ext. intros i Hi. f_equal. lia.
Qed.
Lemma all_numbers_yes y : (forall j, (j < 201)%nat -> exists z, y j = Some z) -> all_numbers y = true.
Proof. intros H. apply forallb_forall. intros j Hj. apply in_seq in Hj. destruct (H j ltac:(lia)) as [z ->]. reflexivity. Qed.
Lemma csimps_some b y z : 0 < b -> (forall j, (j < 201)%nat -> y j = times (gaussian b j) (Some (z j))) ->
  csimps b y = Some (csum 201 (fun j => (bweight j * fst (z j), bweight j * snd (z j)))).
Proof.
  intros Hb H. unfold csimps. rewrite all_numbers_yes by (intros j Hj; rewrite (H j Hj); cbn; destruct (z j); eauto). f_equal. unfold csum. cbn [fst snd]. f_equal.
  - rewrite <- (simps_weights b (fun j => fst (z j)) Hb). unfold simps. apply rsum_ext. intros j Hj. rewrite (H j Hj). cbn. destruct (z j). reflexivity.
  - rewrite <- (simps_weights b (fun j => snd (z j)) Hb). unfold simps. apply rsum_ext. intros j Hj. rewrite (H j Hj). cbn. destruct (z j). reflexivity.
Qed.
Lemma fermi_blurred b im re i l : 0 < b -> (forall j, (j < 201)%nat -> im i <> 0 \/ re l + b * (INR j - 100) / 20 <> 0) -> forall z,
  (forall j, (j < 201)%nat -> resolvent (im i) (re l + b * (INR j - 100) / 20) (z j)) ->
  csimps b (integrand_fermionic b im re i l) = Some (csum 201 (fun j => (bweight j * fst (z j), bweight j * snd (z j)))).
Proof.
  intros Hb Hn z Hz. apply csimps_some; [exact Hb|]. intros j Hj. unfold integrand_fermionic. rewrite point_is. rewrite cinv_some by (apply Hn, Hj).
  rewrite (resolvent_unique _ _ _ _ (Hz j Hj) (resolvent_is _ _ (Hn j Hj))). reflexivity.
Qed.
Lemma bose_even nu om : bose nu (- om) = bose nu om.
Proof. unfold bose. destruct (Req_EM_T nu 0); [reflexivity|]. replace ((- om) ^ 2) with (om ^ 2) by ring. reflexivity. Qed.
Lemma bose_blurred b im re i l : 0 < b -> csimps b (integrand_bosonic b im re i l) = Some (rsum 201 (fun j => bweight j * bose (im i) (re l + b * (INR j - 100) / 20)), 0).
Proof.
  intros Hb. set (x := fun j => b * (INR j - 100) / 20).
  assert (Refl : rsum 201 (fun j => bweight j * bose (im i) (x j - re l)) = rsum 201 (fun j => bweight j * bose (im i) (re l + x j))).
  { rewrite (rsum_rev 201 (fun j => bweight j * bose (im i) (x j - re l))). apply rsum_ext. intros j Hj. replace (201 - 1 - j)%nat with (200 - j)%nat by lia. rewrite bweight_sym by lia. f_equal.
    rewrite <- bose_even. f_equal. unfold x. rewrite minus_INR by lia. replace (INR 200) with 200 by (rewrite INR_IZR_INZ; reflexivity). field. }
  rewrite (csimps_some b _ (fun j => (0.5 * (bose (im i) (x j + re l) + bose (im i) (x j - re l)), 0)) Hb).
  - f_equal. unfold csum. cbn [fst snd]. f_equal.
    + rewrite (rsum_ext _ _ (fun j => 0.5 * (bweight j * bose (im i) (re l + x j)) + 0.5 * (bweight j * bose (im i) (x j - re l)))) by (intros j _; rewrite (Rplus_comm (x j)); ring).
      rewrite rsum_plus, !rsum_scal, Refl. unfold x. lra.
    + apply rsum_zero. intros j _. ring.
  - intros j _. unfold integrand_bosonic. rewrite point_is. fold (x j). destruct (Req_EM_T (im i) 0) as [E|N].
    + cbn. f_equal. f_equal; [|ring]. unfold bose. destruct (Req_EM_T (im i) 0); [|contradiction]. lra.
    + assert (P : 0 < im i ^ 2) by nra. pose proof (pow2_ge_0 (x j + re l)). pose proof (pow2_ge_0 (x j - re l)). rewrite !div_some by lra. cbn [real plus times]. f_equal. f_equal; [|ring].
      unfold bose. destruct (Req_EM_T (im i) 0); [contradiction|]. field. split; lra.
Qed.
Lemma blurred_range w : (forall j, (j < 201)%nat -> 0 <= w j <= 1) -> 0 <= rsum 201 (fun j => bweight j * w j) <= rsum 201 bweight.
Proof.
  intros H. split.
  - apply rsum_nonneg. intros j Hj. pose proof (bweight_pos j). destruct (H j Hj). nra.
  - apply rsum_le. intros j Hj. pose proof (bweight_pos j). destruct (H j Hj). nra.
Qed.
