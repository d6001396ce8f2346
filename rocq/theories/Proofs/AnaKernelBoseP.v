(** Bosonic and particle-hole symmetric kernels. *)
From Coq Require Import Reals Lra Lia List String Bool.
From Verif Require Import Base.PyBase Base.RSum Model.AnaSolver Model.AnaKernel Spec.AnaSolverSpec Spec.AnaKernelSpec Proofs.RSumP Proofs.AnaKernelP.
Import ListNotations.
Local Open Scope R_scope.

Lemma area_as f g a b v w : (forall x, f x = g x) -> v = w -> area f a b v -> area g a b w.
Proof. intros E -> H. exact (area_ext f g a b w E H). Qed.
(** the bosonic time kernel away from om = 0 *)
Definition bose_time (tau om : R) : R := 0.5 * om * (exp (- om * tau) + exp (- om * (1 - tau))) / (1 - exp (- om)).
Lemma exp_neq_1 om : om <> 0 -> 1 - exp (- om) <> 0.
Proof. intros H E. apply H. assert (X : exp (- om) = exp 0) by (rewrite exp_0; lra). apply exp_inv in X. lra. Qed.
Lemma bose_time_pos tau om : om <> 0 -> 0 < bose_time tau om.
Proof.
  intros H. unfold bose_time. pose proof (exp_pos (- om * tau)). pose proof (exp_pos (- om * (1 - tau))). assert (P : 0 < om / (1 - exp (- om))).
  { destruct (Rtotal_order om 0) as [L|[L|L]]; [|lra|].
    - assert (1 < exp (- om)). { pose proof (exp_increasing 0 (- om)) as E. rewrite exp_0 in E. apply E. lra. }
      replace (om / (1 - exp (- om))) with ((- om) / (exp (- om) - 1)) by (field; lra). apply Rdiv_lt_0_compat; lra.
    - assert (exp (- om) < 1). { pose proof (exp_increasing (- om) 0) as E. rewrite exp_0 in E. apply E. lra. } apply Rdiv_lt_0_compat; lra. }
  replace (0.5 * om * (exp (- om * tau) + exp (- om * (1 - tau))) / (1 - exp (- om))) with (0.5 * (exp (- om * tau) + exp (- om * (1 - tau))) * (om / (1 - exp (- om)))) by (field; apply exp_neq_1, H).
  apply Rmult_lt_0_compat; lra.
Qed.
Lemma bose_time_sym tau om : bose_time (1 - tau) om = bose_time tau om.
Proof. unfold bose_time. replace (1 - (1 - tau)) with tau by ring. rewrite (Rplus_comm (exp (- om * (1 - tau)))). reflexivity. Qed.
Lemma bose_time_even tau om : om <> 0 -> bose_time tau (- om) = bose_time tau om.
Proof.
  intros H. unfold bose_time. rewrite Ropp_involutive. pose proof (exp_neq_1 om H) as N. pose proof (exp_neq_1 (- om) ltac:(lra)) as N'. rewrite Ropp_involutive in N'.
  replace (- om * tau) with (om * (1 - tau) + - om) by ring. replace (- om * (1 - tau)) with (om * tau + - om) by ring. rewrite !exp_plus, exp_Ropp in *. pose proof (exp_pos om).
  field. repeat split; lra.
Qed.
Lemma bose_time_transform n om : om <> 0 -> transform (fun t => bose_time t om) (even_freq n) (om ^ 2 / (om ^ 2 + even_freq n ^ 2), 0).
Proof.
  intros H. set (nu := even_freq n). destruct (trig_even n) as [C S]. fold nu in C, S. pose proof (exp_neq_1 om H) as N. pose proof (exp_pos om) as P.
  pose proof (sumsq_pos om nu (or_introl H)) as Q. assert (H' : - om <> 0 \/ nu <> 0) by (left; lra). pose proof (sumsq_pos (- om) nu H') as Q'.
  assert (K : forall t, bose_time t om = 0.5 * om / (1 - exp (- om)) * exp (- om * t) + 0.5 * om * exp (- om) / (1 - exp (- om)) * exp (- - om * t)).
  { intros t. unfold bose_time. replace (- om * (1 - t)) with (- om + - - om * t) by ring. rewrite exp_plus. field. exact N. }
  split; cbn [fst snd].
  - pose proof (area_plus _ _ _ _ _ _ (area_scal (0.5 * om / (1 - exp (- om))) _ _ _ _ (area_cos nu om (or_introl H))) (area_scal (0.5 * om * exp (- om) / (1 - exp (- om))) _ _ _ _ (area_cos nu (- om) H'))) as X.
    cbv zeta in X. rewrite C, S, Ropp_involutive in X. assert (E : exp om = / exp (- om)) by (rewrite exp_Ropp, Rinv_involutive; lra).
    eapply area_as; [| |exact X].
    + intros t. cbn beta. rewrite (K t). rewrite ?Ropp_involutive. ring.
    + rewrite E. pose proof (exp_pos (- om)). replace 0.5 with (/ 2) by lra. field. repeat split; try nra; try lra.
  - pose proof (area_plus _ _ _ _ _ _ (area_scal (0.5 * om / (1 - exp (- om))) _ _ _ _ (area_sin nu om (or_introl H))) (area_scal (0.5 * om * exp (- om) / (1 - exp (- om))) _ _ _ _ (area_sin nu (- om) H'))) as X.
    cbv zeta in X. rewrite C, S, Ropp_involutive in X. assert (E : exp om = / exp (- om)) by (rewrite exp_Ropp, Rinv_involutive; lra).
    eapply area_as; [| |exact X].
    + intros t. cbn beta. rewrite (K t). rewrite ?Ropp_involutive. ring.
    + rewrite E. pose proof (exp_pos (- om)). replace 0.5 with (/ 2) by lra. field. repeat split; try nra; try lra.
Qed.
(** the limit om -> 0 *)
Lemma bose_time_limit tau : limit1_in (fun om => bose_time tau om) (fun om => om <> 0) 1 0.
Proof.
  set (D := fun om : R => om <> 0).
  assert (L1 : limit1_in (fun om => (1 - exp (- om)) / om) D 1 0).
  { intros eps He. destruct (derivable_pt_lim_exp 0 eps He) as [del Hd]. exists del. split; [apply cond_pos|]. intros x [Dx Hx]. simpl in *. unfold R_dist in *.
    rewrite Rminus_0_r in Hx. specialize (Hd (- x) ltac:(unfold D in Dx; lra) ltac:(rewrite Rabs_Ropp; exact Hx)). rewrite Rplus_0_l, exp_0 in Hd.
    replace ((1 - exp (- x)) / x) with ((exp (- x) - 1) / - x) by (field; exact Dx). exact Hd. }
  assert (C : forall c, limit1_in (fun om => exp (- om * c)) D 1 0).
  { intros c. assert (K : continuity_pt (fun om => exp (- om * c)) 0). { apply derivable_continuous_pt. exists (- c * exp (- c * 0)). apply (derivable_pt_lim_ext (fun x => exp (- c * x))); [intros x; f_equal; ring|apply deriv_exp]. }
    intros eps He. destruct (K eps He) as (del & Hd & H). exists del. split; [exact Hd|]. intros x [Dx Hx]. simpl in *. unfold R_dist in *.
    specialize (H x). rewrite Ropp_0, Rmult_0_l, exp_0 in H. apply H. split; [|exact Hx]. split; [exact I|]. unfold D in Dx. auto. }
  assert (X : limit1_in (fun om => 0.5 * (exp (- om * tau) + exp (- om * (1 - tau))) * / ((1 - exp (- om)) / om)) D (0.5 * (1 + 1) * / 1) 0).
  { apply limit_mul; [apply limit_mul; [|apply limit_plus; apply C]|apply limit_inv; [exact L1|lra]].
    intros eps He. exists 1. split; [lra|]. intros x _. simpl. unfold R_dist. rewrite Rminus_eq_0, Rabs_R0. exact He. }
  replace (0.5 * (1 + 1) * / 1) with 1 in X by lra.
  intros eps He. destruct (X eps He) as (del & Hd & H). exists del. split; [exact Hd|]. intros x Hx. specialize (H x Hx). destruct Hx as [Dx _]. unfold bose_time.
  replace (0.5 * x * (exp (- x * tau) + exp (- x * (1 - tau))) / (1 - exp (- x))) with (0.5 * (exp (- x * tau) + exp (- x * (1 - tau))) * / ((1 - exp (- x)) / x)); [exact H|].
  pose proof (exp_neq_1 x Dx). unfold D in Dx. field. split; assumption.
Qed.
(** a constant has no weight at the other frequencies *)
Lemma const_transform n : n <> 0%Z -> transform (fun _ => 1) (even_freq n) (0, 0).
Proof.
  intros Hn. pose proof (even_nonzero n Hn) as N. set (nu := even_freq n) in *. destruct (trig_even n) as [C S]. fold nu in C, S.
  pose proof (area_cos nu 0 (or_intror N)) as X. pose proof (area_sin nu 0 (or_intror N)) as Y. cbv zeta in X, Y. rewrite C, S, Ropp_0, exp_0 in X, Y. split; cbn [fst snd].
  - eapply area_as; [| |exact X]; [intros t; cbn beta; rewrite Rmult_0_l, exp_0; reflexivity|field; exact N].
  - eapply area_as; [| |exact Y]; [intros t; cbn beta; rewrite Rmult_0_l, exp_0; reflexivity|field; exact N].
Qed.

(** ** particle-hole symmetric *)
Lemma cosh_sum tau om : (cosh (tau * om) + cosh ((1 - tau) * om)) / (1 + cosh om) = exp (- tau * om) / (1 + exp (- om)) + exp (- tau * - om) / (1 + exp (- - om)).
Proof.
  unfold cosh. rewrite Ropp_involutive. pose proof (exp_pos om) as P. pose proof (exp_pos (- om)) as P'.
  replace (- (tau * om)) with (- tau * om) by ring. replace ((1 - tau) * om) with (om + - tau * om) by ring. replace (- (om + - tau * om)) with (- om + tau * om) by ring.
  replace (- tau * - om) with (tau * om) by ring. rewrite !exp_plus. assert (E : exp (- om) = / exp om) by apply exp_Ropp. assert (E' : exp (- tau * om) = / exp (tau * om)) by (rewrite <- exp_Ropp; f_equal; ring).
  rewrite E, E'. pose proof (exp_pos (tau * om)). assert (0 < exp om * exp om) by nra. field. repeat split; nra.
Qed.
Lemma cosh_den om : 1 + cosh om <> 0.
Proof. unfold cosh. pose proof (exp_pos om). pose proof (exp_pos (- om)). lra. Qed.

(** ** Bosons at the Matsubara frequencies *)
Lemma zeros_in n x i : In i (zeros_of n x) <-> (i < n)%nat /\ x i = 0.
Proof. unfold zeros_of. rewrite filter_In, in_seq. destruct (Req_EM_T (x i) 0); intuition (try discriminate; try lia). Qed.
Lemma zeros_nodup n x : NoDup (zeros_of n x).
Proof. apply NoDup_filter, seq_NoDup. Qed.
Lemma zeros_one n x : one_zero n x -> zeros_of n x = [] \/ exists i, (i < n)%nat /\ x i = 0 /\ zeros_of n x = [i].
Proof.
  intros H. pose proof (zeros_nodup n x) as D. pose proof (fun i => proj1 (zeros_in n x i)) as Z. destruct (zeros_of n x) as [|i [|j l]]; [left; reflexivity|right|exfalso].
  - exists i. destruct (Z i (or_introl eq_refl)). repeat split; assumption.
  - destruct (Z i (or_introl eq_refl)) as [Hi Ei]. destruct (Z j (or_intror (or_introl eq_refl))) as [Hj Ej]. pose proof (H i j Hi Hj Ei Ej). subst. inversion D as [|? ? N]. apply N. left. reflexivity.
Qed.
Lemma div_some a b : b <> 0 -> div a b = Some (a / b).
Proof. intros H. unfold div. destruct (Req_EM_T b 0); [contradiction|reflexivity]. Qed.
Lemma div_none a : div a 0 = None.
Proof. unfold div. destruct (Req_EM_T 0 0); [reflexivity|lra]. Qed.
Lemma bose_entry nu om : nu <> 0 \/ om <> 0 -> real (div (om * om) (om * om + nu * nu)) = Some (bose nu om, 0).
Proof.
  intros H. pose proof (sumsq_pos om nu ltac:(tauto)). rewrite div_some by lra. cbn. f_equal. f_equal. unfold bose. destruct (Req_EM_T nu 0) as [->|N]; field; [|nra]. destruct H; [lra|]. assumption.
Qed.
Lemma bose_range nu om : 0 <= bose nu om <= 1.
Proof.
  unfold bose. destruct (Req_EM_T nu 0) as [|N]; [lra|]. pose proof (pow2_ge_0 om). assert (0 < nu ^ 2) by nra. split.
  - apply Rle_mult_inv_pos; lra.
  - apply (Rmult_le_reg_r (om ^ 2 + nu ^ 2)); [lra|]. unfold Rdiv. rewrite Rmult_assoc, Rinv_l, Rmult_1_r by lra. lra.
Qed.
Lemma freq_bosonic_entry nim nre im re : one_zero nim im -> one_zero nre re ->
  exists K, freq_bosonic nim nre im re = Ok K /\ forall i j, (i < nim)%nat -> (j < nre)%nat -> K i j = Some (bose (im i) (re j), 0).
Proof.
  intros Hi Hr. unfold freq_bosonic. destruct (zeros_one nim im Hi) as [Zi|(i0 & Li & Ei & Zi)]; rewrite Zi; cbn [List.length Nat.ltb Nat.leb andb].
  - eexists. split; [reflexivity|]. intros i j H1 H2. apply bose_entry. left. intros E. assert (X : In i (zeros_of nim im)) by (apply zeros_in; auto). rewrite Zi in X. destruct X.
  - destruct (zeros_one nre re Hr) as [Zr|(j0 & Lj & Ej & Zr)]; rewrite Zr; cbn [List.length Nat.ltb Nat.leb andb fancy map bind].
    + eexists. split; [reflexivity|]. intros i j H1 H2. apply bose_entry. right. intros E. assert (X : In j (zeros_of nre re)) by (apply zeros_in; auto). rewrite Zr in X. destruct X.
    + eexists. split; [reflexivity|]. intros i j H1 H2. cbn beta. unfold mem. cbn [existsb fst snd orb]. rewrite orb_false_r.
      destruct (Nat.eqb_spec i i0) as [->|N]; cbn [andb].
      * destruct (Nat.eqb_spec j j0) as [->|M].
        -- unfold bose. rewrite Ei. destruct (Req_EM_T 0 0); [reflexivity|lra].
        -- apply bose_entry. right. intros E. apply M. apply (Hr j j0 H2 Lj E Ej).
      * apply bose_entry. left. intros E. apply N. apply (Hi i i0 H1 Li E Ei).
Qed.
