(** Traces of functions of symmetric matrices. *)
From Coq Require Import Reals Lra Lia.
From Verif Require Import Base.PyBase Base.RSum Model.AnaSolver Spec.AnaSolverSpec Spec.AnaBayesSpec Proofs.RSumP.
Local Open Scope R_scope.

Lemma pick n f i : (i < n)%nat -> rsum n (fun j => f j * (if Nat.eqb j i then 1 else 0)) = f i.
Proof.
  intros Hi. rewrite (rsum_single n _ i Hi).
  - rewrite Nat.eqb_refl. ring.
  - intros j Hj N. replace (Nat.eqb j i) with false by (symmetry; apply Nat.eqb_neq; exact N). ring.
Qed.
Lemma pick' n f i : (i < n)%nat -> rsum n (fun j => f j * (if Nat.eqb i j then 1 else 0)) = f i.
Proof. intros Hi. rewrite <- (pick n f i Hi). apply rsum_ext. intros j _. rewrite Nat.eqb_sym. reflexivity. Qed.
Lemma pick_scaled n f a i : (i < n)%nat -> rsum n (fun j => f j * (if Nat.eqb j i then a else 0)) = f i * a.
Proof.
  intros Hi. rewrite (rsum_single n _ i Hi).
  - rewrite Nat.eqb_refl. ring.
  - intros j Hj N. replace (Nat.eqb j i) with false by (symmetry; apply Nat.eqb_neq; exact N). ring.
Qed.

Section Eig.
Variables (n : nat) (M Q : nat -> nat -> R) (lam : nat -> R).
Hypothesis HM : forall i j, (i < n)%nat -> (j < n)%nat -> M i j = rsum n (fun k => Q i k * lam k * Q j k).
Hypothesis Hc : forall k l, (k < n)%nat -> (l < n)%nat -> rsum n (fun i => Q i k * Q i l) = if Nat.eqb k l then 1 else 0.
Hypothesis Hr : forall i j, (i < n)%nat -> (j < n)%nat -> rsum n (fun k => Q i k * Q j k) = if Nat.eqb i j then 1 else 0.

Lemma eig_vec i l : (i < n)%nat -> (l < n)%nat -> rsum n (fun k => M i k * Q k l) = lam l * Q i l.
Proof.
  intros Hi Hl. rewrite (rsum_ext n _ (fun k => rsum n (fun p => Q i p * lam p * (Q k p * Q k l)))).
  2: { intros k Hk. rewrite HM by assumption. rewrite <- rsum_scal_r. apply rsum_ext. intros p _. ring. }
  rewrite rsum_swap. rewrite (rsum_ext n _ (fun p => Q i p * lam p * (if Nat.eqb p l then 1 else 0))).
  2: { intros p Hp. rewrite rsum_scal, Hc by assumption. reflexivity. }
  rewrite (pick n (fun p => Q i p * lam p) l Hl). ring.
Qed.
Lemma eig_form k l : (k < n)%nat -> (l < n)%nat -> rsum n (fun i => rsum n (fun j => Q i k * M i j * Q j l)) = lam k * (if Nat.eqb k l then 1 else 0).
Proof.
  intros Hk Hl. rewrite (rsum_ext n _ (fun i => lam l * (Q i k * Q i l))).
  2: { intros i Hi. rewrite (rsum_ext n _ (fun j => Q i k * (M i j * Q j l))) by (intros; ring). rewrite rsum_scal, eig_vec by assumption. ring. }
  rewrite rsum_scal, Hc by assumption. destruct (Nat.eqb_spec k l) as [->|]; lra.
Qed.
(** functions of the matrix *)
Definition fun_of (f : nat -> R) (i j : nat) : R := rsum n (fun l => Q i l * f l * Q j l).
Lemma fun_of_trace f : trace n (fun_of f) = rsum n f.
Proof.
  unfold trace, fun_of. rewrite rsum_swap. apply rsum_ext. intros l Hl.
  rewrite (rsum_ext n _ (fun i => f l * (Q i l * Q i l))) by (intros; ring). rewrite rsum_scal, Hc by assumption. rewrite Nat.eqb_refl. ring.
Qed.
Lemma diag_value i : (i < n)%nat -> M i i = rsum n (fun k => Q i k ^ 2 * lam k).
Proof. intros Hi. rewrite HM by assumption. apply rsum_ext. intros; ring. Qed.
Lemma row_one i : (i < n)%nat -> rsum n (fun k => Q i k ^ 2) = 1.
Proof. intros Hi. rewrite (rsum_ext n _ (fun k => Q i k * Q i k)) by (intros; ring). rewrite Hr by assumption. rewrite Nat.eqb_refl. reflexivity. Qed.
Lemma col_one k : (k < n)%nat -> rsum n (fun i => Q i k ^ 2) = 1.
Proof. intros Hi. rewrite (rsum_ext n _ (fun i => Q i k * Q i k)) by (intros; ring). rewrite Hc by assumption. rewrite Nat.eqb_refl. reflexivity. Qed.
Lemma trace_eig : trace n M = rsum n lam.
Proof.
  unfold trace. rewrite (rsum_ext n _ (fun i => rsum n (fun k => Q i k ^ 2 * lam k))) by (intros; apply diag_value; assumption).
  rewrite rsum_swap. apply rsum_ext. intros k Hk. rewrite rsum_scal_r, col_one by exact Hk. ring.
Qed.
(** Jensen *)
Lemma jensen (f g : R -> R) : (forall i, (i < n)%nat -> 0 <= M i i) ->
  (forall m x, 0 <= m -> 0 <= x -> f x <= f m + g m * (x - m)) -> (forall k, (k < n)%nat -> 0 <= lam k) ->
  rsum n (fun k => f (lam k)) <= rsum n (fun i => f (M i i)).
Proof.
  intros Hd Hf Hp. apply Rle_trans with (rsum n (fun i => rsum n (fun k => Q i k ^ 2 * f (lam k)))).
  - rewrite rsum_swap. right. apply rsum_ext. intros k Hk. rewrite rsum_scal_r, col_one by exact Hk. ring.
  - apply rsum_le. intros i Hi.
    apply Rle_trans with (rsum n (fun k => Q i k ^ 2 * (f (M i i) + g (M i i) * (lam k - M i i)))).
    + apply rsum_le. intros k Hk. apply Rmult_le_compat_l; [apply pow2_ge_0|]. apply Hf; [apply Hd, Hi|apply Hp, Hk].
    + right. rewrite (rsum_ext n _ (fun k => Q i k ^ 2 * (f (M i i) - g (M i i) * M i i) + g (M i i) * (Q i k ^ 2 * lam k))) by (intros; ring).
      rewrite rsum_plus, rsum_scal_r, rsum_scal, row_one, <- diag_value by exact Hi. ring.
Qed.

Variable alpha : R.
Hypothesis Ha : 0 < alpha.
Hypothesis Hpos : forall k, (k < n)%nat -> 0 <= lam k.
Let f l := lam l / (alpha + lam l).
Lemma share_exists : share_of n alpha M (fun_of f).
Proof.
  intros i k Hi Hk. unfold fun_of.
  rewrite (rsum_ext n _ (fun j => rsum n (fun l => Q i l * f l * Q j l) * (if Nat.eqb j k then alpha else 0) + rsum n (fun l => Q i l * f l * (M k j * Q j l)))).
  2: { intros j Hj. rewrite Rmult_plus_distr_l. f_equal. rewrite <- rsum_scal_r. apply rsum_ext. intros l Hl.
       replace (M k j) with (M j k) by (rewrite !HM by assumption; apply rsum_ext; intros; ring). ring. }
  rewrite rsum_plus, (pick_scaled n (fun j => rsum n (fun l => Q i l * f l * Q j l)) alpha k Hk), rsum_swap, <- rsum_scal_r, <- rsum_plus, HM by assumption.
  apply rsum_ext. intros l Hl. rewrite rsum_scal, eig_vec by assumption. specialize (Hpos l Hl). unfold f. field. lra.
Qed.
Lemma share_trace G : share_of n alpha M G -> trace n G = rsum n f.
Proof.
  intros HG.
  assert (V : forall i l, (i < n)%nat -> (l < n)%nat -> rsum n (fun j => G i j * Q j l) = f l * Q i l).
  { intros i l Hi Hl. assert (X : rsum n (fun k => rsum n (fun j => G i j * ((if Nat.eqb j k then alpha else 0) + M j k)) * Q k l) = rsum n (fun k => M i k * Q k l)).
    { apply rsum_ext. intros k Hk. rewrite HG by assumption. reflexivity. }
    rewrite eig_vec in X by assumption.
    rewrite (rsum_ext n _ (fun k => rsum n (fun j => G i j * ((if Nat.eqb j k then alpha else 0) * Q k l + M j k * Q k l)))) in X.
    2: { intros k Hk. rewrite <- rsum_scal_r. apply rsum_ext. intros; ring. }
    rewrite rsum_swap in X. rewrite (rsum_ext n _ (fun j => (alpha + lam l) * (G i j * Q j l))) in X.
    2: { intros j Hj. rewrite rsum_scal, rsum_plus, eig_vec by assumption.
         rewrite (rsum_ext n _ (fun k => Q k l * (if Nat.eqb k j then alpha else 0))) by (intros; rewrite Nat.eqb_sym; ring).
         rewrite (pick_scaled n (fun k => Q k l) alpha j Hj). ring. }
    rewrite rsum_scal in X. specialize (Hpos l Hl). unfold f. apply Rmult_eq_reg_l with (alpha + lam l); [rewrite X; field; lra|lra]. }
  unfold trace. rewrite (rsum_ext n _ (fun i => rsum n (fun l => f l * Q i l ^ 2))).
  - rewrite rsum_swap. apply rsum_ext. intros l Hl. rewrite rsum_scal, col_one by exact Hl. ring.
  - intros i Hi. rewrite (rsum_ext n (fun l => f l * Q i l ^ 2) (fun l => rsum n (fun j => G i j * Q j l) * Q i l)) by (intros l Hl; rewrite V by assumption; ring).
    rewrite (rsum_ext n _ (fun l => rsum n (fun j => G i j * (Q j l * Q i l)))) by (intros l Hl; rewrite <- rsum_scal_r; apply rsum_ext; intros; ring).
    rewrite rsum_swap. rewrite (rsum_ext n _ (fun j => G i j * (if Nat.eqb j i then 1 else 0))).
    + symmetry. apply (pick n (fun j => G i j) i Hi).
    + intros j Hj. rewrite rsum_scal, Hr by assumption. reflexivity.
Qed.
Lemma share_terms : 0 <= rsum n f /\ ((0 < n)%nat -> rsum n f < INR n).
Proof.
  split; [apply rsum_nonneg; intros l Hl; specialize (Hpos l Hl); unfold f, Rdiv; apply Rmult_le_pos; [exact Hpos|apply Rlt_le, Rinv_0_lt_compat; lra]|].
  intros Hn. replace (INR n) with (rsum n (fun _ => 1)).
  - assert (Hlt : forall l, (l < n)%nat -> f l < 1). { intros l Hl. specialize (Hpos l Hl). unfold f. apply Rmult_lt_reg_r with (alpha + lam l); [lra|]. unfold Rdiv. rewrite Rmult_assoc, Rinv_l by lra. lra. }
    apply rsum_lt with 0%nat; [intros i Hi; apply Rlt_le, Hlt, Hi|exact Hn|apply Hlt, Hn].
  - clear. induction n as [|p IH]; [reflexivity|]. rewrite S_INR. cbn [rsum]. rewrite IH. reflexivity.
Qed.
End Eig.

Section Gram.
(** M = B^T B with [p] rows *)
Variables (n p : nat) (M Q B : nat -> nat -> R) (lam : nat -> R).
Hypothesis HM : forall i j, (i < n)%nat -> (j < n)%nat -> M i j = rsum n (fun k => Q i k * lam k * Q j k).
Hypothesis Hc : forall k l, (k < n)%nat -> (l < n)%nat -> rsum n (fun i => Q i k * Q i l) = if Nat.eqb k l then 1 else 0.
Hypothesis HB : forall i j, (i < n)%nat -> (j < n)%nat -> M i j = rsum p (fun m => B m i * B m j).
Let c m k := rsum n (fun i => B m i * Q i k).
Lemma gram_c k l : (k < n)%nat -> (l < n)%nat -> rsum p (fun m => c m k * c m l) = lam k * (if Nat.eqb k l then 1 else 0).
Proof.
  intros Hk Hl. rewrite <- (eig_form n M Q lam HM Hc k l Hk Hl).
  rewrite (rsum_ext p _ (fun m => rsum n (fun i => rsum n (fun j => Q i k * (B m i * B m j) * Q j l)))).
  - rewrite rsum_swap. apply rsum_ext. intros i Hi. rewrite rsum_swap. apply rsum_ext. intros j Hj.
    rewrite HB by assumption. rewrite <- rsum_scal, <- rsum_scal_r. reflexivity.
  - intros m _. unfold c. rewrite <- rsum_scal_r. apply rsum_ext. intros i _. rewrite <- rsum_scal. apply rsum_ext. intros; ring.
Qed.
Lemma gram_eig k : (k < n)%nat -> lam k = rsum p (fun m => c m k ^ 2).
Proof. intros Hk. pose proof (gram_c k k Hk Hk) as X. rewrite Nat.eqb_refl in X. rewrite Rmult_1_r in X. rewrite <- X. apply rsum_ext. intros; ring. Qed.
Lemma gram_pos k : (k < n)%nat -> 0 <= lam k.
Proof. intros Hk. rewrite gram_eig by exact Hk. apply rsum_nonneg. intros; apply pow2_ge_0. Qed.
Variable alpha : R.
Hypothesis Ha : 0 < alpha.
Lemma bessel m : (m < p)%nat -> rsum n (fun k => c m k ^ 2 / (alpha + lam k)) <= 1.
Proof.
  intros Hm. set (a := fun k => c m k / (alpha + lam k)). set (x := fun m' => rsum n (fun k => a k * c m' k)).
  assert (X0 : x m = rsum n (fun k => c m k ^ 2 / (alpha + lam k))). { unfold x. apply rsum_ext. intros k Hk. pose proof (gram_pos k Hk). unfold a. field. lra. }
  assert (X1 : rsum p (fun m' => x m' * x m') = rsum n (fun k => a k ^ 2 * lam k)).
  { rewrite (rsum_ext p _ (fun m' => rsum n (fun k => rsum n (fun l => a k * a l * (c m' k * c m' l))))).
    - rewrite rsum_swap. apply rsum_ext. intros k Hk. rewrite rsum_swap.
      rewrite (rsum_ext n _ (fun l => (a k * a l * lam k) * (if Nat.eqb k l then 1 else 0))) by (intros l Hl; rewrite rsum_scal, gram_c by assumption; ring).
      rewrite (pick' n (fun l => a k * a l * lam k) k Hk). ring.
    - intros m' _. unfold x. rewrite <- rsum_scal_r. apply rsum_ext. intros k _. rewrite <- rsum_scal. apply rsum_ext. intros; ring. }
  assert (X2 : rsum p (fun m' => ((if Nat.eqb m' m then 1 else 0) - x m') ^ 2) = 1 - 2 * x m + rsum p (fun m' => x m' * x m')).
  { rewrite (rsum_ext p _ (fun m' => 1 * (if Nat.eqb m' m then 1 else 0) - 2 * x m' * (if Nat.eqb m' m then 1 else 0) + x m' * x m')) by (intros m' _; destruct (Nat.eqb m' m); ring).
    rewrite rsum_plus, rsum_minus, (pick p (fun _ => 1) m Hm), (pick p (fun m' => 2 * x m') m Hm). reflexivity. }
  assert (X3 : 0 <= rsum p (fun m' => ((if Nat.eqb m' m then 1 else 0) - x m') ^ 2)) by (apply rsum_nonneg; intros; apply pow2_ge_0).
  assert (X4 : rsum n (fun k => a k ^ 2 * lam k) <= x m).
  { rewrite X0. apply rsum_le. intros k Hk. pose proof (gram_pos k Hk). unfold a.
    replace ((c m k / (alpha + lam k)) ^ 2 * lam k) with (c m k ^ 2 / (alpha + lam k) * (lam k / (alpha + lam k))) by (field; lra).
    rewrite <- (Rmult_1_r (c m k ^ 2 / (alpha + lam k))) at 2. apply Rmult_le_compat_l.
    - apply Rmult_le_pos; [apply pow2_ge_0|apply Rlt_le, Rinv_0_lt_compat; lra].
    - apply Rmult_le_reg_r with (alpha + lam k); [lra|]. unfold Rdiv. rewrite Rmult_assoc, Rinv_l by lra. lra. }
  rewrite <- X0. lra.
Qed.
Lemma gram_trace : rsum n (fun k => lam k / (alpha + lam k)) <= INR p.
Proof.
  rewrite (rsum_ext n _ (fun k => rsum p (fun m => c m k ^ 2 / (alpha + lam k)))).
  - rewrite rsum_swap. replace (INR p) with (rsum p (fun _ => 1)); [apply rsum_le; intros; apply bessel; assumption|].
    clear. induction p as [|q IH]; [reflexivity|]. rewrite S_INR. cbn [rsum]. rewrite IH. reflexivity.
  - intros k Hk. rewrite (gram_eig k Hk) at 1. unfold Rdiv. rewrite rsum_scal_r. reflexivity.
Qed.
End Gram.
