(** C108: kernels of the analytic continuation. *)
From Coq Require Import Reals Lra Lia List String Bool.
From Verif Require Import Base.PyBase Base.RSum Model.AnaSolver Model.AnaKernel Spec.AnaSolverSpec Spec.AnaKernelSpec Proofs.RSumP Proofs.AnaKernelP Proofs.AnaKernelBoseP Proofs.AnaKernelBlurP Proofs.AnaKernelCovP.
Import ListNotations.
Local Open Scope R_scope.

(** Fermions at Matsubara frequencies: the entry is 1 / (i nu - om); there is no number only where both vanish. *)
Theorem C108_freq_fermionic nim nre im re : exists K, kernel_matrix "freq_fermionic" nim nre im re = Ok K /\ forall i j,
  (im i <> 0 \/ re j <> 0 -> exists z, K i j = Some z /\ resolvent (im i) (re j) z /\ (forall z', resolvent (im i) (re j) z' -> z' = z)) /\
  (im i = 0 -> re j = 0 -> K i j = None).
Proof.
  eexists. split; [reflexivity|]. intros i j. cbn beta. split.
  - intros H. eexists. split; [apply cinv_some, H|]. split; [apply resolvent_is, H|]. intros z' Hz. apply (resolvent_unique _ _ _ _ Hz), resolvent_is, H.
  - intros E1 E2. unfold cinv. rewrite E1, E2. destruct (Req_EM_T _ 0); [reflexivity|exfalso; lra].
Qed.
Print Assumptions C108_freq_fermionic.

(** Fermions in imaginary time: the entry is exp(-tau om) / (1 + exp(-om)) up to a relative error below 1e-8, exactly so unless exp(-om) > 1e8; it lies in (0, 1]
    and its Matsubara transform is minus the frequency kernel (times the same factor). *)
Theorem C108_time_fermionic nim nre im re : (0 < nim)%nat -> (0 < nre)%nat -> exists (K : nat -> nat -> cnum) (r : R -> R), kernel_matrix "time_fermionic" nim nre im re = Ok K /\
  (forall om, 1 <= r om < 1 + 1e-8 /\ (exp (- om) <= 1.0E8 -> r om = 1)) /\
  forall i j, exists f, (forall tau, f tau = r (re j) * (exp (- tau * re j) / (1 + exp (- re j)))) /\ K i j = Some (f (im i), 0) /\
    (0 <= im i <= 1 -> 0 < f (im i) <= 1) /\
    forall n z, resolvent (odd_freq n) (re j) z -> transform f (odd_freq n) (- r (re j) * fst z, - r (re j) * snd z).
Proof.
  intros H1 H2. eexists. exists excess. split; [unfold kernel_matrix, time_fermionic; cbn [String.eqb Ascii.eqb Bool.eqb]; destruct nim, nre; try lia; reflexivity|]. split.
  - intros om. split; [apply excess_bound|]. intros H. unfold excess. destruct (Rlt_dec _ _); [lra|reflexivity].
  - intros i j. exists (fun t => time_kernel t (re j)). split; [intros tau; apply time_kernel_excess|]. split; [reflexivity|]. split; [apply time_kernel_range|]. intros n z. apply time_fermi_transform.
Qed.
Print Assumptions C108_time_fermionic.

(** Bosons at Matsubara frequencies: om^2 / (om^2 + nu^2), between 0 and 1, and 1 at zero frequency for every om, provided no axis has a repeated zero. *)
Theorem C108_freq_bosonic nim nre im re : one_zero nim im -> one_zero nre re -> exists K, kernel_matrix "freq_bosonic" nim nre im re = Ok K /\
  forall i j, (i < nim)%nat -> (j < nre)%nat -> K i j = Some (bose (im i) (re j), 0) /\ 0 <= bose (im i) (re j) <= 1.
Proof.
  intros Hi Hr. destruct (freq_bosonic_entry nim nre im re Hi Hr) as (K & E & H). exists K. split; [exact E|]. intros i j Li Lj. split; [apply H; assumption|apply bose_range].
Qed.
Print Assumptions C108_freq_bosonic.
(** Refuted for repeated zeros: two zeros in both axes leave entries that are no numbers; two in one and three in the other are refused. *)
Theorem C108_repeated_zeros_refuted : (exists K, kernel_matrix "freq_bosonic" 2 2 (fun _ => 0) (fun _ => 0) = Ok K /\ K 0%nat 1%nat = None /\ K 0%nat 0%nat = Some (1, 0)) /\
  kernel_matrix "freq_bosonic" 2 3 (fun _ => 0) (fun _ => 0) = Raise IndexError.
Proof.
  assert (Z2 : zeros_of 2 (fun _ => 0) = [0; 1]%nat) by (unfold zeros_of; cbn; destruct (Req_EM_T 0 0); [reflexivity|lra]).
  assert (Z3 : zeros_of 3 (fun _ => 0) = [0; 1; 2]%nat) by (unfold zeros_of; cbn; destruct (Req_EM_T 0 0); [reflexivity|lra]).
  split.
  - eexists. split; [unfold kernel_matrix, freq_bosonic; cbn [String.eqb Ascii.eqb Bool.eqb]; rewrite Z2; reflexivity|]. split; [|reflexivity].
    cbn. unfold div. destruct (Req_EM_T (0 * 0 + 0 * 0) 0); [reflexivity|exfalso; lra].
  - unfold kernel_matrix, freq_bosonic. cbn [String.eqb Ascii.eqb Bool.eqb]. rewrite Z2, Z3. reflexivity.
Qed.
Print Assumptions C108_repeated_zeros_refuted.

(** Bosons in imaginary time: beyond the first column the entry for om <> 0 is positive, symmetric in time and even in om; its Matsubara transform is the frequency
    kernel; the first column is 1, which is the limit for om -> 0. *)
Theorem C108_time_bosonic nim nre im re : (0 < nre)%nat -> exists (K : nat -> nat -> cnum) (f : R -> R -> R), kernel_matrix "time_bosonic" nim nre im re = Ok K /\
  (forall tau om, f tau om = 0.5 * om * (exp (- om * tau) + exp (- om * (1 - tau))) / (1 - exp (- om))) /\
  (forall i, K i 0%nat = Some (1, 0)) /\
  (forall i j, (0 < j)%nat -> (re j = 0 -> K i j = None) /\ (re j <> 0 -> K i j = Some (f (im i) (re j), 0))) /\
  (forall tau om, om <> 0 -> 0 < f tau om /\ f (1 - tau) om = f tau om /\ f tau (- om) = f tau om) /\
  (forall n om, om <> 0 -> transform (fun tau => f tau om) (even_freq n) (bose (even_freq n) om, 0)) /\
  (forall tau eps, 0 < eps -> exists d, 0 < d /\ forall om, om <> 0 -> Rabs om < d -> Rabs (f tau om - 1) < eps).
Proof.
  intros H. eexists. exists bose_time. split; [unfold kernel_matrix, time_bosonic; cbn [String.eqb Ascii.eqb Bool.eqb]; destruct nre; [lia|reflexivity]|].
  split; [reflexivity|]. split; [reflexivity|]. split; [|split; [|split]].
  - intros i [|j] Hj; [lia|]. cbn [Nat.eqb]. split; intros E.
    + rewrite E, Ropp_0, exp_0, Rminus_eq_0. rewrite div_none. reflexivity.
    + rewrite div_some by (apply exp_neq_1, E). reflexivity.
  - intros tau om E. split; [apply bose_time_pos, E|]. split; [apply bose_time_sym|apply bose_time_even, E].
  - intros n om E. replace (bose (even_freq n) om) with (om ^ 2 / (om ^ 2 + even_freq n ^ 2)); [apply bose_time_transform, E|].
    unfold bose. destruct (Req_EM_T _ 0) as [->|]; [|reflexivity]. field. exact E.
  - intros tau eps He. destruct (bose_time_limit tau eps He) as (d & Hd & L). exists d. split; [exact Hd|]. intros om N A. apply L. split; [exact N|]. simpl. unfold R_dist. rewrite Rminus_0_r. exact A.
Qed.
Print Assumptions C108_time_bosonic.
(** Refuted: the first column is 1 even if the first frequency is not zero; then its transform vanishes where it should be om^2 / (om^2 + nu^2). *)
Theorem C108_first_column_refuted nim nre im re n : (0 < nre)%nat -> n <> 0%Z -> re 0%nat <> 0 -> exists K, kernel_matrix "time_bosonic" nim nre im re = Ok K /\
  (forall i, K i 0%nat = Some (1, 0)) /\ transform (fun _ => 1) (even_freq n) (0, 0) /\ 0 < bose (even_freq n) (re 0%nat).
Proof.
  intros H Hn N. eexists. split; [unfold kernel_matrix, time_bosonic; cbn [String.eqb Ascii.eqb Bool.eqb]; destruct nre; [lia|reflexivity]|]. split; [reflexivity|]. split; [apply const_transform, Hn|].
  unfold bose. destruct (Req_EM_T _ 0); [lra|]. assert (0 < re 0%nat ^ 2) by nra. pose proof (pow2_ge_0 (even_freq n)). apply Rdiv_lt_0_compat; lra.
Qed.
Print Assumptions C108_first_column_refuted.

(** The particle-hole symmetric kernels are the sums of the kernels at om and -om (imaginary parts for frequencies, whose real parts cancel); the xyz kernel is the imaginary part
    of the fermionic one, with 0 in the first row if the first frequency is zero. *)
Theorem C108_symmetric nim nre im re :
  (exists K, kernel_matrix "freq_fermionic_phsym" nim nre im re = Ok K /\ forall i j, im i <> 0 \/ re j <> 0 -> forall z z', resolvent (im i) (re j) z -> resolvent (im i) (- re j) z' ->
     K i j = Some (snd z + snd z', 0) /\ fst z + fst z' = 0) /\
  (exists K, kernel_matrix "time_fermionic_phsym" nim nre im re = Ok K /\ forall i j,
     let f om := exp (- im i * om) / (1 + exp (- om)) in K i j = Some (f (re j) + f (- re j), 0)) /\
  ((0 < nim)%nat -> exists K, kernel_matrix "freq_bosonic_xyz" nim nre im re = Ok K /\ forall i j, im i <> 0 \/ re j <> 0 -> forall z, resolvent (im i) (re j) z -> K i j = Some (snd z, 0)).
Proof.
  split; [|split].
  - eexists. split; [reflexivity|]. intros i j H z z' Hz Hz'. cbn beta.
    rewrite (resolvent_unique _ _ _ _ Hz (resolvent_is _ _ H)). assert (H' : im i <> 0 \/ - re j <> 0) by (destruct H; [tauto|right; lra]). rewrite (resolvent_unique _ _ _ _ Hz' (resolvent_is _ _ H')). cbn [fst snd].
    pose proof (sumsq_pos (re j) (im i) ltac:(tauto)) as Q. rewrite div_some by lra. cbn [real]. split; [f_equal; f_equal|]; field; try lra; (split; lra).
  - eexists. split; [reflexivity|]. intros i j f. cbn beta. rewrite div_some by apply cosh_den. cbn [real]. unfold f. rewrite cosh_sum. reflexivity.
  - intros Hn. unfold kernel_matrix, freq_bosonic_xyz. cbn [String.eqb Ascii.eqb Bool.eqb]. destruct nim; [lia|]. cbn [Nat.eqb].
    assert (G : forall i j, im i <> 0 \/ re j <> 0 -> forall z, resolvent (im i) (re j) z -> real (div (- im i) (re j * re j + im i * im i)) = Some (snd z, 0)).
    { intros i j H z Hz. rewrite (resolvent_unique _ _ _ _ Hz (resolvent_is _ _ H)). cbn [fst snd]. pose proof (sumsq_pos (re j) (im i) ltac:(tauto)). rewrite div_some by lra. reflexivity. }
    destruct (Req_EM_T (im 0%nat) 0) as [E|N]; eexists; (split; [reflexivity|]); intros i j H z Hz; cbn beta; [|apply G; assumption].
    destruct i as [|i]; cbn [Nat.eqb]; [|apply G; assumption]. f_equal. f_equal. rewrite (resolvent_unique _ _ _ _ Hz (resolvent_is _ _ H)). cbn [snd]. rewrite E. unfold Rdiv. ring.
Qed.
Print Assumptions C108_symmetric.

(** Only the seven kinds are known; kind and both axes have to be given. *)
Theorem C108_kinds : (forall kind re im k, kernel_init kind re im = Ok k -> exists s r i, kind = Some s /\ re = Some r /\ im = Some i /\
    In s ["freq_bosonic"; "time_bosonic"; "freq_bosonic_xyz"; "freq_fermionic"; "time_fermionic"; "freq_fermionic_phsym"; "time_fermionic_phsym"]%string) /\
  (forall kind re im, kind = None \/ re = None \/ im = None -> kernel_init kind re im = Raise ValueError) /\
  (forall s re im, ~ In s ["freq_bosonic"; "time_bosonic"; "freq_bosonic_xyz"; "freq_fermionic"; "time_fermionic"; "freq_fermionic_phsym"; "time_fermionic_phsym"]%string -> kernel_init (Some s) (Some re) (Some im) = Raise ValueError).
Proof.
  assert (U : forall s nim nre im re, ~ In s ["freq_bosonic"; "time_bosonic"; "freq_bosonic_xyz"; "freq_fermionic"; "time_fermionic"; "freq_fermionic_phsym"; "time_fermionic_phsym"]%string -> kernel_matrix s nim nre im re = Raise ValueError).
  { intros s nim nre im re N. unfold kernel_matrix. repeat match goal with |- context [String.eqb s ?k] => destruct (String.eqb_spec s k) as [->|]; [exfalso; apply N; cbn; tauto|] end. reflexivity. }
  split; [|split].
  - intros [s|] [re|] [im|] k H; try discriminate. exists s, re, im. split; [reflexivity|]. split; [reflexivity|]. split; [reflexivity|].
    destruct (in_dec string_dec s ["freq_bosonic"; "time_bosonic"; "freq_bosonic_xyz"; "freq_fermionic"; "time_fermionic"; "freq_fermionic_phsym"; "time_fermionic_phsym"]%string) as [I|N]; [exact I|].
    unfold kernel_init in H. rewrite U in H by exact N. discriminate.
  - intros [s|] [re|] [im|] [H|[H|H]]; try discriminate; reflexivity.
  - intros s re im N. unfold kernel_init. rewrite U by exact N. reflexivity.
Qed.
Print Assumptions C108_kinds.

(** Blurring: one set of 201 positive symmetric weights, the same for every width, turns the kernel at om into the average of the kernels at om + b (j - 100) / 20, and
    turns the spectrum (its interpolation) into the average over the same points.  The Gaussian is available exactly when the width is positive and the
    kernel one of the two that can be blurred; otherwise the kernel is left as it was and blurring the spectrum raises. *)
Theorem C108_blur : exists c : nat -> R, (forall j, (j < 201)%nat -> 0 < c j) /\ (forall j, (j <= 200)%nat -> c (200 - j)%nat = c j) /\
  forall k b interpolate h, k_gauss k = None ->
  let pt l j := snd (k_re k) l + b * (INR j - 100) / 20 in
  exists k', preblur k b = Ok k' /\ k_kind k' = k_kind k /\ k_re k' = k_re k /\ k_im k' = k_im k /\ k_original k' = k_original k /\
  (0 < b -> k_kind k = "freq_fermionic"%string -> forall i l z, (forall j, (j < 201)%nat -> snd (k_im k) i <> 0 \/ pt l j <> 0) ->
     (forall j, (j < 201)%nat -> resolvent (snd (k_im k) i) (pt l j) (z j)) ->
     k_matrix k' i l = Some (rsum 201 (fun j => c j * fst (z j)), rsum 201 (fun j => c j * snd (z j)))) /\
  (0 < b -> k_kind k = "freq_bosonic"%string -> forall i l, k_matrix k' i l = Some (rsum 201 (fun j => c j * bose (snd (k_im k) i) (pt l j)), 0)) /\
  (0 < b -> k_kind k = "freq_fermionic"%string \/ k_kind k = "freq_bosonic"%string ->
     exists A, blur interpolate k' h = Ok A /\ forall l, A l = rsum 201 (fun j => c j * spline interpolate k h (pt l j))) /\
  (~ 0 < b \/ k_kind k <> "freq_fermionic"%string /\ k_kind k <> "freq_bosonic"%string -> k_matrix k' = k_original k /\ blur interpolate k' h = Raise AttributeError).
Proof.
  exists bweight. split; [intros j _; apply bweight_pos|]. split; [apply bweight_sym|]. intros k b interpolate h Hg pt. unfold preblur, convolve_kernel.
  assert (BL : 0 < b -> forall k', k_gauss k' = Some b -> k_kind k' = k_kind k -> k_re k' = k_re k -> exists A, blur interpolate k' h = Ok A /\ forall l, A l = rsum 201 (fun j => bweight j * spline interpolate k h (pt l j))).
  { intros Hb k' G E1 E2. unfold blur. rewrite G. eexists. split; [reflexivity|]. intros l. cbn beta. rewrite (simps_weights b (fun j => spline interpolate k' h (snd (k_re k') l + w_integration b j)) Hb). apply rsum_ext. intros j _.
    unfold spline. rewrite E1, E2, point_is. reflexivity. }
  destruct (Rlt_dec 0 b) as [Hb|Hb].
  - destruct (String.eqb_spec (k_kind k) "freq_fermionic") as [E|N]; cbn [orb bind].
    + eexists. split; [reflexivity|]. do 4 (split; [reflexivity|]). split; [|split; [|split]].
      * intros _ _ i l z Hn Hz. cbn [k_matrix]. apply (fermi_blurred b _ _ i l Hb Hn z Hz).
      * intros _ E'. rewrite E in E'. discriminate.
      * intros _ _. apply BL; [exact Hb|reflexivity|reflexivity|reflexivity].
      * intros [X|[X _]]; contradiction.
    + destruct (String.eqb_spec (k_kind k) "freq_bosonic") as [E|M]; cbn [bind].
      * eexists. split; [reflexivity|]. do 4 (split; [reflexivity|]). split; [|split; [|split]].
        -- intros _ E'. rewrite E in E'. discriminate.
        -- intros _ _ i l. cbn [k_matrix]. apply (bose_blurred b _ _ i l Hb).
        -- intros _ _. apply BL; [exact Hb|reflexivity|reflexivity|reflexivity].
        -- intros [X|[_ X]]; contradiction.
      * eexists. split; [reflexivity|]. do 4 (split; [reflexivity|]). split; [intros _ E; contradiction|]. split; [intros _ E; contradiction|]. split; [intros _ [E|E]; contradiction|].
        intros _. split; [reflexivity|]. unfold blur. cbn [k_gauss]. rewrite Hg. reflexivity.
  - eexists. split; [reflexivity|]. do 4 (split; [reflexivity|]). do 3 (split; [intros X; contradiction|]). intros _. split; [reflexivity|]. unfold blur. cbn [k_gauss]. rewrite Hg. reflexivity.
Qed.
Print Assumptions C108_blur.

(** The misfit that is minimised (C105) for given standard deviations: the sum of squared moduli of data minus fit over the squared deviations. *)
Theorem C108_misfit eigh nim nw re K fermi model data sd off A : proper fermi nim nw K data -> exists s, prepare eigh nim nw re K fermi model data (Some sd) None off = Ok s /\
  s_nw s = nw /\ s_w s = re /\ s_model s = model /\ s_off s = off /\ misfit s (s_K s) A = rsum nim (fun k => abs2 (residual nw re K data A k) / sd k ^ 2).
Proof.
  intros Hp. eexists. split; [reflexivity|]. do 4 (split; [reflexivity|]). rewrite misfit_abs2.
  - cbn. apply rsum_ext. intros k Hk. rewrite residual_rotate, rotate_eye by exact Hk. reflexivity.
  - cbn. apply proper_rotate; [exact Hp|]. right. intros i j _ _. reflexivity.
Qed.
Print Assumptions C108_misfit.
(** For a covariance matrix with positive eigenvalues: the quadratic form of its inverse, whatever eigenvectors are found. *)
Theorem C108_covariance (eigh : nat -> cmat -> (nat -> R) * cmat) nim nw re K fermi model data cov off A P : proper fermi nim nw K data -> fermi = true \/ real_matrix nim (snd (eigh nim cov)) ->
  is_eigh nim cov (fst (eigh nim cov)) (snd (eigh nim cov)) -> (forall k, (k < nim)%nat -> 0 < fst (eigh nim cov) k) -> inverse_of nim cov P ->
  exists s, prepare eigh nim nw re K fermi model data None (Some cov) off = Ok s /\ form nim P (residual nw re K data A) = (misfit s (s_K s) A, 0).
Proof.
  intros Hp Hr He Hpos Hinv. unfold prepare, errors. destruct (eigh nim cov) as [v u]. cbn [fst snd bind] in *. eexists. split; [reflexivity|].
  rewrite (form_eig nim cov P v u He Hinv Hpos). f_equal. rewrite misfit_abs2 by (cbn; apply proper_rotate; assumption).
  cbn. apply rsum_ext. intros k Hk. rewrite residual_rotate, Rabs_pos_eq by (left; apply Hpos, Hk). reflexivity.
Qed.
Print Assumptions C108_covariance.
(** Finding: with neither or both kinds of errors the constructor fails with an AttributeError. *)
Theorem C108_errors_finding eigh nim nw re K fermi model data sd cov off :
  prepare eigh nim nw re K fermi model data None None off = Raise AttributeError /\ prepare eigh nim nw re K fermi model data (Some sd) (Some cov) off = Raise AttributeError.
Proof. split; reflexivity. Qed.
Print Assumptions C108_errors_finding.

(** hypotheses met by concrete cases *)
Example C108_ex_axes : one_zero 3 (fun i => INR i) /\ resolvent 1 2 (- 2 / 5, - 1 / 5).
Proof.
  split; [intros i j _ _ Hi Hj; apply INR_eq; lra|]. unfold resolvent, cmul. cbn. f_equal; lra.
Qed.
(** a correlated pair of data: covariance [[5, 4], [4, 5]] with eigenvalues 1 and 9 *)
Example C108_ex_cov : let q := / sqrt 2 in
  let c : cmat := fun i j => (if Nat.eqb i j then 5 else 4, 0) in
  let u : cmat := fun i k => (match i, k with O, O => q | S _, O => - q | _, _ => q end, 0) in
  let v : nat -> R := fun k => match k with O => 1 | _ => 9 end in
  is_eigh 2 c v u /\ inverse_of 2 c (fun i j => (if Nat.eqb i j then 5 / 9 else - 4 / 9, 0)) /\ real_matrix 2 u.
Proof.
  intros q c u v. assert (Q : q * q = / 2). { unfold q. rewrite <- Rinv_mult_distr; [|apply Rgt_not_eq, sqrt_lt_R0; lra|apply Rgt_not_eq, sqrt_lt_R0; lra]. rewrite sqrt_def by lra. reflexivity. }
  split; [|split; [|intros i j _ _; reflexivity]].
  - split; [|split]; intros [|[|i]] [|[|j]] Hi Hj; try lia; unfold csum, cmul, conj, delta, c, u, v; cbn; f_equal; nra.
  - intros [|[|i]] [|[|j]] Hi Hj; try lia; unfold csum, cmul, delta, c; cbn; f_equal; lra.
Qed.
