(** Proofs about continuation problems and the Kramers-Kronig transformation. *)
From Coq Require Import Reals Lra Lia List String Bool.
From Verif Require Import Base.PyBase Base.RSum Model.AnaSolver Model.AnaKernel Model.AnaProblem Spec.AnaSolverSpec Spec.AnaKernelSpec Spec.AnaProblemSpec Proofs.RSumP Proofs.AnaKernelP Proofs.AnaKernelBoseP Proofs.AnaKernelCovP Proofs.AnaSolverP.
Import ListNotations.
Local Open Scope R_scope.

Lemma column_sum_some n m b f : (forall a, (a < n)%nat -> m a b = Some (f a)) -> column_sum n m b = Some (rsum n f).
Proof.
  intros H. unfold column_sum. replace (forallb _ _) with true.
  - f_equal. apply rsum_ext. intros a Ha. rewrite (H a Ha). reflexivity.
  - symmetry. apply forallb_forall. intros a Ha. apply in_seq in Ha. rewrite (H a) by lia. reflexivity.
Qed.
Lemma column_sum_none n m a b : (a < n)%nat -> m a b = None -> column_sum n m b = None.
Proof.
  intros Ha H. unfold column_sum. replace (forallb _ _) with false; [reflexivity|]. symmetry. apply not_true_iff_false. intros F. rewrite forallb_forall in F.
  specialize (F a ltac:(apply in_seq; lia)). rewrite H in F. discriminate.
Qed.
Lemma square_diff x y : x ^ 2 - y ^ 2 = (x - y) * (x + y). Proof. ring. Qed.
Lemma hilbert_linear s n w A B c b : hilbert_mirror s n w (fun a => A a + c * B a) b = hilbert_mirror s n w A b + c * hilbert_mirror s n w B b.
Proof.
  unfold hilbert_mirror, others. rewrite <- rsum_scal, <- rsum_plus. apply rsum_ext. intros a _. destruct (Nat.eqb a b); [ring|]. unfold Rdiv. ring.
Qed.
Lemma integral_scaled n w f b : integral n (fun l => w l * b) f = b * integral n w f.
Proof. unfold integral. rewrite <- rsum_scal. apply rsum_ext. intros i _. field. Qed.
Lemma fermi_scaled beta tau om : beta <> 0 -> fermi_unit (/ beta * tau) (om * beta) = fermi_time beta tau om.
Proof.
  intros H. unfold fermi_unit, fermi_time. f_equal; [f_equal; field; exact H|]. do 2 f_equal. f_equal. ring.
Qed.
Lemma bose_scaled beta tau om : beta <> 0 -> om <> 0 -> bose_unit (/ beta * tau) (om * beta) = beta * bose_time_phys beta tau om.
Proof.
  intros H N. unfold bose_unit, bose_time_phys. replace (- (om * beta) * (/ beta * tau)) with (- om * tau) by (field; exact H). replace (- (om * beta) * (1 - / beta * tau)) with (- om * (beta - tau)) by (field; exact H).
  replace (- (om * beta)) with (- beta * om) by ring. assert (X : 1 - exp (- beta * om) <> 0). { replace (- beta * om) with (- (beta * om)) by ring. apply exp_neq_1. intros E. apply Rmult_integral in E. tauto. }
  replace 0.5 with (/ 2) by lra. field. exact X.
Qed.
Lemma near0_zero : near0 0 = true.
Proof. unfold near0. destruct (Rle_dec _ _) as [|N]; [reflexivity|]. exfalso. apply N. rewrite Rabs_R0. lra. Qed.
Lemma all_near0_zero n p x : (forall i, (i < n)%nat -> p (x i) = 0) -> all_near0 n p x = true.
Proof. intros H. apply forallb_forall. intros i Hi. apply in_seq in Hi. rewrite H by lia. apply near0_zero. Qed.
Lemma all_near0_false n (p : cpx -> R) x i : (i < n)%nat -> 1e-8 < Rabs (p (x i)) -> all_near0 n p x = false.
Proof.
  intros Hi H. apply not_true_iff_false. intros F. unfold all_near0 in F. rewrite forallb_forall in F. specialize (F i ltac:(apply in_seq; lia)). unfold near0 in F. destruct (Rle_dec _ _); [lra|discriminate].
Qed.
Lemma replace_at_length {A} i (x : A) l : List.length (replace_at i x l) = List.length l.
Proof. revert i. induction l as [|y l IH]; intros [|i]; cbn; [reflexivity|reflexivity|reflexivity|rewrite IH; reflexivity]. Qed.
Lemma replace_at_nth {A} i j (x : A) l : nth_error (replace_at i x l) j = if (Nat.eqb i j && Nat.ltb j (List.length l))%bool then Some x else nth_error l j.
Proof.
  revert i j. induction l as [|y l IH]; intros i j.
  - destruct i, j; cbn; try reflexivity; rewrite andb_false_r; reflexivity.
  - destruct i, j; cbn [replace_at nth_error Nat.eqb andb]; try reflexivity. rewrite IH. cbn [List.length]. reflexivity.
Qed.
