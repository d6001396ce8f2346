(** C110: continuation problems. *)
From Coq Require Import Reals Lra Lia List String Bool.
From Verif Require Import Base.PyBase Base.RSum Model.AnaSolver Model.AnaKernel Model.AnaProblem Spec.AnaSolverSpec Spec.AnaProblemSpec Proofs.RSumP Proofs.AnaKernelP Proofs.AnaKernelBoseP Proofs.AnaKernelCovP Proofs.AnaSolverP Proofs.AnaProblemP.
Import ListNotations.
Local Open Scope R_scope.

(** Which problems can be stated: for a real axis the six modes (not the xyz mode of the solver), the time modes only with an inverse temperature; an axis with an imaginary part is refused. *)
Theorem C110_modes nim im nre re data beta :
  ((exists i, (i < nim)%nat /\ 1e-8 < Rabs (snd (im i))) -> forall mode, problem_init nim im nre re data mode beta = Failed ValueError) /\
  ((forall i, (i < nim)%nat -> snd (im i) = 0) -> forall mode,
    (In mode ["freq_bosonic"; "freq_fermionic"; "freq_fermionic_phsym"]%string -> exists p, problem_init nim im nre re data mode beta = Made p /\ p_mode p = mode /\ p_im p = im /\ p_re p = re) /\
    (In mode ["time_bosonic"; "time_fermionic"; "time_fermionic_phsym"]%string -> (beta = None -> problem_init nim im nre re data mode beta = Failed TypeError) /\
       (forall b, beta = Some b -> exists p, problem_init nim im nre re data mode beta = Made p /\ p_mode p = mode /\ p_beta p = Some b)) /\
    (~ In mode ["freq_bosonic"; "freq_fermionic"; "freq_fermionic_phsym"; "time_bosonic"; "time_fermionic"; "time_fermionic_phsym"]%string -> problem_init nim im nre re data mode beta = Failed ValueError)) /\
  (forall mode, problem_init nim im nre re data mode beta <> Exit).
Proof.
  split; [|split].
  - intros (i & Hi & H) mode. unfold problem_init. rewrite (all_near0_false nim snd im i Hi H). reflexivity.
  - intros H mode. unfold problem_init. rewrite (all_near0_zero nim snd im H). split; [|split].
    + intros I. cbn in I. destruct I as [<-|[<-|[<-|[]]]].
      * eexists. split; [reflexivity|]. repeat split.
      * eexists. split; [reflexivity|]. repeat split.
      * cbn [String.eqb Ascii.eqb Bool.eqb]. destruct (all_near0 nim fst im); eexists; (split; [reflexivity|]); repeat split.
    + intros I. split.
      * intros ->. cbn in I. destruct I as [<-|[<-|[<-|[]]]]; reflexivity.
      * intros b ->. cbn in I. destruct I as [<-|[<-|[<-|[]]]]; (eexists; split; [reflexivity|]; repeat split).
    + intros N. repeat match goal with |- context [String.eqb mode ?k] => destruct (String.eqb_spec mode k) as [->|]; [exfalso; apply N; cbn; tauto|] end. reflexivity.
  - intros mode. unfold problem_init. destruct (all_near0 nim snd im); [|discriminate]. repeat destruct (String.eqb _ _); cbn [orb]; repeat destruct (all_near0 _ _ _); destruct beta; discriminate.
Qed.
Print Assumptions C110_modes.

(** Fermions in imaginary time: the spectrum returned, on the axis that was given and with the kernel at the given inverse temperature, reproduces exactly what the
    solver's spectrum gives in the solver's units; its integral is the same. *)
Theorem C110_time_fermionic maxent nim im nre re data b p s : b <> 0 -> (forall i, (i < nim)%nat -> snd (im i) = 0) ->
  problem_init nim im nre re data "time_fermionic" (Some b) = Made p -> maxent p = Ok s -> exists s', solve maxent p "maxent_svd" = Ok s' /\
  (forall k, fit (fermi_time b) nre re (o_A (s_best s')) (fst (im k)) = fit fermi_unit nre (p_re p) (o_A (s_best s)) (fst (p_im p k))) /\
  integral nre re (o_A (s_best s')) = integral nre (p_re p) (o_A (s_best s)) /\ (forall k, p_data p k = data k) /\ o_back (s_best s') = o_back (s_best s).
Proof.
  intros Hb H E M. unfold problem_init in E. rewrite (all_near0_zero nim snd im H) in E. cbn in E. injection E as <-.
  unfold solve. cbn [String.eqb Ascii.eqb Bool.eqb]. rewrite M. cbn. eexists. split; [reflexivity|]. cbn. split; [|split; [|split; [reflexivity|reflexivity]]].
  - intros k. unfold fit. rewrite integral_scaled, <- integral_scal. apply integral_ext'. intros l _. rewrite fermi_scaled by exact Hb. ring.
  - rewrite integral_scaled, <- integral_scal. apply integral_ext'. intros l _. ring.
Qed.
Print Assumptions C110_time_fermionic.

(** Bosons in imaginary time: likewise, with the data and the returned fit rescaled by the inverse temperature (for a mesh without the frequency zero). *)
Theorem C110_time_bosonic maxent nim im nre re data b p s : b <> 0 -> (forall i, (i < nim)%nat -> snd (im i) = 0) -> (forall l, (l < nre)%nat -> re l <> 0) ->
  problem_init nim im nre re data "time_bosonic" (Some b) = Made p -> maxent p = Ok s -> exists s', solve maxent p "maxent_svd" = Ok s' /\
  (forall k, b * fit (bose_time_phys b) nre re (o_A (s_best s')) (fst (im k)) = fit bose_unit nre (p_re p) (o_A (s_best s)) (fst (p_im p k))) /\
  (forall k, fst (p_data p k) = b * fst (data k)) /\ (forall k, b * o_back (s_best s') k = o_back (s_best s) k).
Proof.
  intros Hb H Hr E M. unfold problem_init in E. rewrite (all_near0_zero nim snd im H) in E. cbn in E. injection E as <-.
  unfold solve. cbn [String.eqb Ascii.eqb Bool.eqb]. rewrite M. cbn. eexists. split; [reflexivity|]. cbn. split; [|split; [reflexivity|intros k; field; exact Hb]].
  intros k. unfold fit. rewrite integral_scaled. f_equal. apply integral_ext'. intros l Hl. rewrite bose_scaled by (try exact Hb; apply Hr, Hl). ring.
Qed.
Print Assumptions C110_time_bosonic.

(** Refuted for the particle-hole symmetric time mode: the spectrum is not scaled back, so that on the given axis it gives 1 / beta of the fit. *)
Theorem C110_phsym_refuted maxent nim im nre re data b p s : b <> 0 -> (forall i, (i < nim)%nat -> snd (im i) = 0) ->
  problem_init nim im nre re data "time_fermionic_phsym" (Some b) = Made p -> maxent p = Ok s -> exists s', solve maxent p "maxent_svd" = Ok s' /\
  integral nre re (o_A (s_best s')) = integral nre (p_re p) (o_A (s_best s)) / b /\
  forall k, let unit t x := fermi_unit t x + fermi_unit t (- x) in let phys t x := fermi_time b t x + fermi_time b t (- x) in
    fit phys nre re (o_A (s_best s')) (fst (im k)) = fit unit nre (p_re p) (o_A (s_best s)) (fst (p_im p k)) / b.
Proof.
  intros Hb H E M. unfold problem_init in E. rewrite (all_near0_zero nim snd im H) in E. cbn in E. injection E as <-.
  unfold solve. cbn [String.eqb Ascii.eqb Bool.eqb]. rewrite M. cbn. eexists. split; [reflexivity|]. cbn. split.
  - rewrite integral_scaled. field. exact Hb.
  - intros k. unfold fit. rewrite integral_scaled. unfold Rdiv. rewrite (Rmult_comm b), Rmult_assoc, Rinv_r, Rmult_1_r by exact Hb. apply integral_ext'. intros l _.
    rewrite (fermi_scaled b) by exact Hb. replace (- (re l * b)) with (- re l * b) by ring. rewrite (fermi_scaled b) by exact Hb. reflexivity.
Qed.
Print Assumptions C110_phsym_refuted.

(** Finding: in the time modes the default model is not rescaled: a model normalised on the axis that was given has the integral beta in the solver, and when the solver
    returns the model, the user gets beta times the model. *)
Theorem C110_model_finding maxent nim im nre re data b p s model mode : In mode ["time_fermionic"; "time_bosonic"]%string -> (forall i, (i < nim)%nat -> snd (im i) = 0) ->
  problem_init nim im nre re data mode (Some b) = Made p -> maxent p = Ok s -> o_A (s_best s) = model ->
  integral nre (p_re p) model = b * integral nre re model /\ exists s', solve maxent p "maxent_svd" = Ok s' /\ forall l, o_A (s_best s') l = b * model l.
Proof.
  intros I H E M HA. unfold problem_init in E. rewrite (all_near0_zero nim snd im H) in E. cbn in I. destruct I as [<-|[<-|[]]]; cbn in E; injection E as <-;
    (split; [apply integral_scaled|]); unfold solve; cbn [String.eqb Ascii.eqb Bool.eqb]; rewrite M; cbn; (eexists; split; [reflexivity|]); cbn; intros l; rewrite HA; ring.
Qed.
Print Assumptions C110_model_finding.

(** Finding: only the chosen result is scaled back; the others in the list are left in the solver's units. *)
Theorem C110_list_finding maxent p s s' : maxent p = Ok s -> solve maxent p "maxent_svd" = Ok s' ->
  List.length (s_all s') = List.length (s_all s) /\ forall i, s_alias s <> Some i -> nth_error (s_all s') i = nth_error (s_all s) i.
Proof.
  intros M H. unfold solve in H. cbn [String.eqb Ascii.eqb Bool.eqb] in H. rewrite M in H. cbn [bind] in H. destruct (rescale p (s_best s)) as [o|]; [|discriminate]. cbn [bind] in H. injection H as <-. cbn [s_all].
  destruct (s_alias s) as [j|]; [|split; reflexivity]. split; [apply replace_at_length|]. intros i N. rewrite replace_at_nth. destruct (Nat.eqb_spec j i) as [->|]; [contradiction|reflexivity].
Qed.
Print Assumptions C110_list_finding.

(** Refuted: the particle-hole symmetric frequency mode takes the imaginary part of imaginary data.  It looks at the axis instead of the data: unless all frequencies
    vanish it takes the real part, so that purely imaginary data become zeros, and it never complains. *)
Theorem C110_imaginary_refuted nim im nre re data beta : (forall i, (i < nim)%nat -> snd (im i) = 0) -> (exists i, (i < nim)%nat /\ 1e-8 < Rabs (fst (im i))) -> (forall k, (k < nim)%nat -> fst (data k) = 0) ->
  exists p, problem_init nim im nre re data "freq_fermionic_phsym" beta = Made p /\ forall k, (k < nim)%nat -> p_data p k = (0, 0).
Proof.
  intros H (i & Hi & L) Hd. unfold problem_init. rewrite (all_near0_zero nim snd im H), (all_near0_false nim fst im i Hi L). cbn [String.eqb Ascii.eqb Bool.eqb]. eexists. split; [reflexivity|]. cbn.
  intros k Hk. rewrite (Hd k Hk). reflexivity.
Qed.
Print Assumptions C110_imaginary_refuted.

(** The frequency modes hand data, axes and results through unchanged. *)
Theorem C110_frequencies maxent nim im nre re data beta p s mode : In mode ["freq_fermionic"; "freq_bosonic"]%string -> problem_init nim im nre re data mode beta = Made p ->
  p_data p = data /\ p_re p = re /\ p_im p = im /\ (maxent p = Ok s -> exists s', solve maxent p "maxent_svd" = Ok s' /\ s_best s' = s_best s).
Proof.
  intros I E. unfold problem_init in E. destruct (all_near0 nim snd im); [|discriminate]. cbn in I. destruct I as [<-|[<-|[]]]; cbn in E; injection E as <-; cbn;
    (do 3 (split; [reflexivity|])); intros M; unfold solve; cbn [String.eqb Ascii.eqb Bool.eqb]; rewrite M; cbn; eexists; (split; [reflexivity|]); reflexivity.
Qed.
Print Assumptions C110_frequencies.

(** Methods: only 'maxent_svd' works; 'pade', which the message offers, ends in an AttributeError; for an unknown method [solve] raises, but [partial_solution] returns the exception as a value. *)
Theorem C110_methods maxent maxent_one p :
  solve maxent p "maxent_mc" = Raise NotImplementedError /\ solve maxent p "pade" = Raise AttributeError /\
  (forall m, ~ In m ["maxent_svd"; "maxent_mc"; "pade"]%string -> solve maxent p m = Raise ValueError) /\
  (forall m, m <> "maxent_svd"%string -> partial_solution maxent_one p m = Ok (Exception_object ValueError)) /\
  (forall m s, solve maxent p m = Ok s -> m = "maxent_svd"%string).
Proof.
  split; [reflexivity|]. split; [reflexivity|]. split; [|split].
  - intros m N. unfold solve. repeat match goal with |- context [String.eqb m ?k] => destruct (String.eqb_spec m k) as [->|]; [exfalso; apply N; cbn; tauto|] end. reflexivity.
  - intros m N. unfold partial_solution. rewrite (proj2 (String.eqb_neq _ _) N). reflexivity.
  - intros m s H. unfold solve in H. destruct (String.eqb_spec m "maxent_svd"); [assumption|]. destruct (String.eqb m "maxent_mc"); [discriminate|]. destruct (String.eqb m "pade"); discriminate.
Qed.
Print Assumptions C110_methods.
(** [partial_solution] scales its result back as [solve] does *)
Theorem C110_partial maxent maxent_one p s o : maxent p = Ok s -> maxent_one p = Ok o -> s_best s = o ->
  match solve maxent p "maxent_svd", partial_solution maxent_one p "maxent_svd" with
  | Ok s', Ok (Result_of o') => s_best s' = o' | Raise e, Raise e' => e = e' | _, _ => False end.
Proof.
  intros M M1 <-. unfold solve, partial_solution. cbn [String.eqb Ascii.eqb Bool.eqb]. rewrite M, M1. cbn [bind]. destruct (rescale p (s_best s)); reflexivity.
Qed.
Print Assumptions C110_partial.
(** a problem in imaginary time at beta = 2 *)
Example C110_ex : exists p s', problem_init 2 (fun k => (INR k, 0)) 2 (fun l => INR l + 1) (fun _ => (1, 0)) "time_fermionic" (Some 2) = Made p /\ p_re p 1%nat = 4 /\
  solve (fun _ => Ok (Solution (Outcome (fun _ => 3) (fun _ => 1)) [] None)) p "maxent_svd" = Ok s' /\ o_A (s_best s') 0%nat = 6.
Proof.
  eexists. eexists. split; [unfold problem_init; rewrite (all_near0_zero 2 snd (fun k => (INR k, 0))) by reflexivity; reflexivity|]. cbn. split; [lra|]. split; [reflexivity|]. cbn. lra.
Qed.
