(** The misfit for standard deviations and for covariance matrices. *)
From Coq Require Import Reals Lra Lia List.
From Verif Require Import Base.PyBase Base.RSum Model.AnaSolver Model.AnaKernel Spec.AnaSolverSpec Spec.AnaKernelSpec Proofs.RSumP.
Import ListNotations.
Local Open Scope R_scope.

Lemma cpx_ext (z z' : cpx) : fst z = fst z' -> snd z = snd z' -> z = z'.
Proof. destruct z, z'. cbn. intros -> ->. reflexivity. Qed.
Lemma csum_ext n f g : (forall i, (i < n)%nat -> f i = g i) -> csum n f = csum n g.
Proof. intros H. unfold csum. f_equal; apply rsum_ext; intros i Hi; rewrite (H i Hi); reflexivity. Qed.
Lemma csum_mul_l n c f : csum n (fun i => cmul c (f i)) = cmul c (csum n f).
Proof.
  apply cpx_ext; unfold csum, cmul; cbn [fst snd].
  - rewrite rsum_minus, !rsum_scal. reflexivity.
  - rewrite rsum_plus, !rsum_scal. reflexivity.
Qed.
Lemma csum_mul_r n c f : csum n (fun i => cmul (f i) c) = cmul (csum n f) c.
Proof.
  apply cpx_ext; unfold csum, cmul; cbn [fst snd].
  - rewrite rsum_minus, !rsum_scal_r. reflexivity.
  - rewrite rsum_plus, !rsum_scal_r. reflexivity.
Qed.
Lemma csum_swap n m (f : nat -> nat -> cpx) : csum n (fun i => csum m (f i)) = csum m (fun j => csum n (fun i => f i j)).
Proof. unfold csum. cbn [fst snd]. f_equal; apply (rsum_swap n m (fun i j => _ (f i j))). Qed.
Lemma csum_delta n j f : (j < n)%nat -> csum n (fun i => cmul (delta i j) (f i)) = f j.
Proof.
  intros H. apply cpx_ext; unfold csum, cmul, delta; cbn [fst snd].
  - rewrite (rsum_single n _ j H); [rewrite Nat.eqb_refl; ring|]. intros i _ N. rewrite (proj2 (Nat.eqb_neq _ _) N). ring.
  - rewrite (rsum_single n _ j H); [rewrite Nat.eqb_refl; ring|]. intros i _ N. rewrite (proj2 (Nat.eqb_neq _ _) N). ring.
Qed.
Lemma cmul_assoc a b c : cmul a (cmul b c) = cmul (cmul a b) c. Proof. apply cpx_ext; unfold cmul; cbn; ring. Qed.
Lemma cmul_comm a b : cmul a b = cmul b a. Proof. apply cpx_ext; unfold cmul; cbn; ring. Qed.
Lemma conj_mul a b : conj (cmul a b) = cmul (conj a) (conj b). Proof. apply cpx_ext; unfold cmul, conj; cbn; ring. Qed.
Lemma conj_sum n f : conj (csum n f) = csum n (fun i => conj (f i)).
Proof. apply cpx_ext; unfold csum, conj; cbn; [reflexivity|]. rewrite <- (Rmult_1_l (rsum n (fun i => snd (f i)))), Ropp_mult_distr_l, <- rsum_scal. apply rsum_ext. intros; ring. Qed.
Lemma conj_conj a : conj (conj a) = a. Proof. apply cpx_ext; unfold conj; cbn; ring. Qed.
Lemma delta_sym i j : delta i j = delta j i. Proof. unfold delta. rewrite Nat.eqb_sym. reflexivity. Qed.

(** the form of the inverse in the eigenbasis *)
Section Cov.
Variables (n : nat) (c p : cmat) (v : nat -> R) (u : cmat).
Hypothesis E : is_eigh n c v u.
Hypothesis P : inverse_of n c p.
Hypothesis V : forall k, (k < n)%nat -> 0 < v k.
Lemma eig_row k m : (k < n)%nat -> (m < n)%nat -> csum n (fun i => cmul (conj (u i k)) (c i m)) = cmul (v k, 0) (conj (u m k)).
Proof.
  intros Hk Hm. destruct E as (E1 & E2 & E3).
  rewrite (csum_ext _ _ (fun i => csum n (fun l => cmul (cmul (conj (u i k)) (u i l)) (cmul (v l, 0) (conj (u m l)))))).
  - rewrite csum_swap. rewrite (csum_ext _ _ (fun l => cmul (delta l k) (cmul (v l, 0) (conj (u m l))))).
    + apply (csum_delta n k (fun l => cmul (v l, 0) (conj (u m l))) Hk).
    + intros l Hl. rewrite csum_mul_r, E3 by assumption. rewrite delta_sym. reflexivity.
  - intros i Hi. rewrite (E1 i m Hi Hm), <- csum_mul_l. apply csum_ext. intros l _. apply cmul_assoc.
Qed.
Lemma inv_row k j : (k < n)%nat -> (j < n)%nat -> csum n (fun m => cmul (conj (u m k)) (p m j)) = cmul (/ v k, 0) (conj (u j k)).
Proof.
  intros Hk Hj. pose proof (V k Hk) as Pos.
  assert (X : cmul (v k, 0) (csum n (fun m => cmul (conj (u m k)) (p m j))) = conj (u j k)).
  { rewrite <- csum_mul_l. rewrite (csum_ext _ _ (fun m => csum n (fun i => cmul (conj (u i k)) (cmul (c i m) (p m j))))).
    - rewrite csum_swap. rewrite (csum_ext _ _ (fun i => cmul (delta i j) (conj (u i k)))).
      + apply (csum_delta n j (fun i => conj (u i k)) Hj).
      + intros i Hi. rewrite csum_mul_l, P by assumption. apply cmul_comm.
    - intros m Hm. rewrite cmul_assoc, <- (eig_row k m Hk Hm), <- csum_mul_r. apply csum_ext. intros i _. symmetry. apply cmul_assoc. }
  rewrite <- X, cmul_assoc. symmetry. apply cpx_ext; unfold cmul; cbn [fst snd]; field; lra.
Qed.
Lemma unrotate z i : (i < n)%nat -> z i = csum n (fun k => cmul (u i k) (rotate n u z k)).
Proof.
  intros Hi. destruct E as (_ & E2 & _). unfold rotate.
  rewrite (csum_ext _ _ (fun k => csum n (fun j => cmul (cmul (u i k) (conj (u j k))) (z j)))).
  - rewrite csum_swap. rewrite (csum_ext _ _ (fun j => cmul (delta j i) (z j))); [symmetry; apply (csum_delta n i z Hi)|].
    intros j Hj. rewrite csum_mul_r, E2 by assumption. rewrite delta_sym. reflexivity.
  - intros k _. rewrite <- csum_mul_l. apply csum_ext. intros j _. apply cmul_assoc.
Qed.
Lemma form_eig z : form n p z = (rsum n (fun k => abs2 (rotate n u z k) / v k), 0).
Proof.
  set (r := rotate n u z). unfold form.
  transitivity (csum n (fun k => cmul (conj (r k)) (csum n (fun i => cmul (conj (u i k)) (csum n (fun j => cmul (p i j) (z j))))))).
  - rewrite (csum_ext _ _ (fun i => cmul (conj (z i)) (csum n (fun j => cmul (p i j) (z j))))) by (intros i _; apply csum_mul_l).
    rewrite (csum_ext _ _ (fun i => csum n (fun k => cmul (conj (r k)) (cmul (conj (u i k)) (csum n (fun j => cmul (p i j) (z j))))))).
    + rewrite csum_swap. apply csum_ext. intros k _. apply csum_mul_l.
    + intros i Hi. rewrite (unrotate z i Hi) at 1. fold r. rewrite conj_sum, <- csum_mul_r. apply csum_ext. intros k _. rewrite conj_mul, cmul_assoc. f_equal. apply cmul_comm.
  - rewrite (csum_ext _ _ (fun k => (abs2 (r k) / v k, 0))).
    + apply cpx_ext; unfold csum; cbn [fst snd]; [reflexivity|apply rsum_zero; reflexivity].
    + intros k Hk. rewrite (csum_ext _ _ (fun i => csum n (fun j => cmul (cmul (conj (u i k)) (p i j)) (z j)))) by (intros i _; rewrite <- csum_mul_l; apply csum_ext; intros j _; apply cmul_assoc).
      rewrite csum_swap. rewrite (csum_ext _ _ (fun j => cmul (/ v k, 0) (cmul (conj (u j k)) (z j)))).
      * rewrite csum_mul_l. change (csum n (fun i => cmul (conj (u i k)) (z i))) with (r k). destruct (r k) as [a b]. pose proof (V k Hk). apply cpx_ext; unfold cmul, conj, abs2; cbn [fst snd]; field; lra.
      * intros j Hj. rewrite csum_mul_r, inv_row by assumption. symmetry. apply cmul_assoc.
Qed.
End Cov.

(** rotation and integration commute *)
Lemma integral_plus nw x f g : integral nw x (fun l => f l + g l) = integral nw x f + integral nw x g.
Proof. unfold integral. rewrite <- rsum_plus. apply rsum_ext. intros i _. field. Qed.
Lemma integral_scal nw x a f : integral nw x (fun l => a * f l) = a * integral nw x f.
Proof. unfold integral. rewrite <- rsum_scal. apply rsum_ext. intros i _. field. Qed.
Lemma integral_ext' nw x f g : (forall l, (l < nw)%nat -> f l = g l) -> integral nw x f = integral nw x g.
Proof. intros H. unfold integral. apply rsum_ext. intros i Hi. rewrite !H by lia. reflexivity. Qed.
Lemma integral_sum nw x n (f : nat -> nat -> R) : integral nw x (fun l => rsum n (fun i => f i l)) = rsum n (fun i => integral nw x (f i)).
Proof.
  induction n as [|n IH]; cbn [rsum]; [unfold integral; apply rsum_zero; intros; field|]. rewrite <- IH. apply (integral_plus nw x (fun l => rsum n (fun i => f i l)) (f n)).
Qed.
Lemma residual_rotate nim nw re u K data A k : residual nw re (rotate_to_cov_eb nim u K) (rotate nim u data) A k = rotate nim u (residual nw re K data A) k.
Proof.
  apply cpx_ext; unfold residual, rotate_to_cov_eb, rotate, csub, csum, cmul, conj; cbn [fst snd].
  - rewrite (integral_ext' _ _ _ (fun l => rsum nim (fun i => (fst (u i k) * fst (K i l) - - snd (u i k) * snd (K i l)) * A l))) by (intros l _; symmetry; apply rsum_scal_r).
    rewrite integral_sum, <- rsum_minus. apply rsum_ext. intros i _.
    rewrite (integral_ext' _ _ _ (fun l => fst (u i k) * (fst (K i l) * A l) + snd (u i k) * (snd (K i l) * A l))) by (intros; ring). rewrite integral_plus, !integral_scal. ring.
  - rewrite (integral_ext' _ _ _ (fun l => rsum nim (fun i => (fst (u i k) * snd (K i l) + - snd (u i k) * fst (K i l)) * A l))) by (intros l _; symmetry; apply rsum_scal_r).
    rewrite integral_sum, <- rsum_minus. apply rsum_ext. intros i _.
    rewrite (integral_ext' _ _ _ (fun l => fst (u i k) * (snd (K i l) * A l) + - snd (u i k) * (fst (K i l) * A l))) by (intros; ring). rewrite integral_plus, !integral_scal. ring.
Qed.
(** the misfit as a sum over the complex residuals *)
Lemma misfit_abs2 s A : proper (s_fermi s) (s_nim s) (s_nw s) (s_kernel s) (s_data_c s) ->
  misfit s (s_K s) A = rsum (s_nim s) (fun k => abs2 (residual (s_nw s) (s_w s) (s_kernel s) (s_data_c s) A k) / s_var s k).
Proof.
  intros Hp. unfold misfit, fit_at, s_niw, s_E, s_data, s_K. destruct (s_fermi s) eqn:F.
  - rewrite (rsum_split (2 * s_nim s) (s_nim s)) by lia. replace (2 * s_nim s - s_nim s)%nat with (s_nim s) by lia. rewrite <- rsum_plus. apply rsum_ext. intros k Hk.
    replace (Nat.ltb k (s_nim s)) with true by (symmetry; apply Nat.ltb_lt; exact Hk). replace (Nat.ltb (s_nim s + k) (s_nim s)) with false by (symmetry; apply Nat.ltb_ge; lia).
    replace (s_nim s + k - s_nim s)%nat with k by lia. unfold abs2, residual, csub. cbn [fst snd]. unfold Rdiv. ring.
  - destruct Hp as [|[Hd HK]]; [discriminate|]. apply rsum_ext. intros k Hk. unfold abs2, residual, csub. cbn [fst snd]. rewrite (Hd k Hk).
    rewrite (integral_ext' _ _ (fun l => snd (s_kernel s k l) * A l) (fun _ => 0 * 0)) by (intros l Hl; rewrite (HK k l Hk Hl); ring). rewrite (integral_scal _ _ 0 (fun _ => 0)). unfold Rdiv. ring.
Qed.
Lemma proper_rotate fermi nim nw K data u : proper fermi nim nw K data -> fermi = true \/ real_matrix nim u -> proper fermi nim nw (rotate_to_cov_eb nim u K) (rotate nim u data).
Proof.
  intros [F|[Hd HK]]; [intros _; left; exact F|]. intros [F|Hu]; [left; exact F|]. right. unfold rotate_to_cov_eb, rotate, csum, cmul, conj. cbn [fst snd]. split.
  - intros k Hk. apply rsum_zero. intros i Hi. rewrite (Hd i Hi), (Hu i k Hi Hk). ring.
  - intros k l Hk Hl. apply rsum_zero. intros i Hi. rewrite (HK i l Hi Hl), (Hu i k Hi Hk). ring.
Qed.
Lemma rotate_eye n z k : (k < n)%nat -> rotate n (fun i j => (eye i j, 0)) z k = z k.
Proof.
  intros Hk. unfold rotate. rewrite (csum_ext _ _ (fun i => cmul (delta i k) (z i))); [apply (csum_delta n k z Hk)|].
  intros i _. f_equal. unfold conj, delta, eye. cbn. f_equal. ring.
Qed.
