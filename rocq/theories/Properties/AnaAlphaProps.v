(** C107: choice of the weight of the entropy. *)
From Coq Require Import Reals Lra Lia List String.
From Verif Require Import Base.PyBase Base.RSum Model.AnaSolver Model.AnaAlpha Spec.AnaSolverSpec Spec.AnaAlphaSpec Proofs.RSumP Proofs.AnaSolverP Proofs.AnaSolverMainP Proofs.AnaSolverRepP Proofs.AnaSolverExP Proofs.AnaAlphaP.
Import ListNotations.
Local Open Scope R_scope.

(** With a divisor above 1 the search ends; the weights tried are the start divided by the powers of the divisor, the first one always and then as long as
    they are not below the end; what is recorded (weights, misfits, results, in step with each other) are the successful optimizations, each started from
    the previous success, the first from zeros; failures are skipped. *)
Theorem C107_tried opt curve_fit start stop div pos : 0 < stop -> 1 < div -> exists K, last_tried start stop div K /\
  (forall K', last_tried start stop div K' -> K' = K) /\
  let recs := successes opt (weights start div K) zeros in
  forall fuel, (K < fuel)%nat -> kink_loop opt fuel start stop div zeros (Trail [] [] []) = Some (Trail (map (fun p => r_chi2 (snd p)) recs) (map fst recs) (map snd recs)) /\
    solve_chi2kink opt curve_fit fuel start stop div pos = Some (kink_choice opt curve_fit pos (Trail (map (fun p => r_chi2 (snd p)) recs) (map fst recs) (map snd recs))).
Proof.
  intros Hs Hd. destruct (ends_somewhere start stop div Hs Hd) as [K HK]. exists K. split; [exact HK|]. split; [intros K' H'; apply (last_tried_unique _ _ _ _ _ H' HK)|].
  intros recs fuel Hf. pose proof (kink_ends opt K start stop div zeros (Trail [] [] []) fuel HK Hf) as X. fold recs in X. unfold extend in X. cbn in X. split; [exact X|].
  unfold solve_chi2kink. rewrite X. reflexivity.
Qed.
Print Assumptions C107_tried.

(** Finding: with a divisor of at most 1 the search never ends. *)
Theorem C107_divisor_refuted opt curve_fit start stop div pos fuel : 0 < div <= 1 -> 0 < start -> stop <= start -> solve_chi2kink opt curve_fit fuel start stop div pos = None.
Proof. intros Hd Hs Hst. unfold solve_chi2kink. rewrite kink_never by assumption. reflexivity. Qed.
Print Assumptions C107_divisor_refuted.

(** The result: the last success if the fit raises ValueError (an IndexError if there is none); any other exception of the fit is passed on; a falling fit is
    refused; else one more optimization, at the weight ten to the power c - position / d, started from the recorded solution whose weight is nearest on the
    logarithmic scale. *)
Theorem C107_choice opt curve_fit pos recs :
  let t := Trail (map (fun p => r_chi2 (snd p)) recs) (map fst recs) (map snd recs) in
  let out := kink_choice opt curve_fit pos t in
  match curve_fit (map (fun p => log10 (fst p)) recs) (map (fun p => log10 (r_chi2 (snd p))) recs) with
  | Raise e => (e <> ValueError -> out = Raise e) /\ (e = ValueError -> recs = [] -> out = Raise IndexError) /\
      (e = ValueError -> forall l a o, recs = l ++ [(a, o)] -> out = Ok (o, map snd recs))
  | Ok (a, b, c, d) => (d < 0 -> out = Raise RuntimeError) /\
      (0 <= d -> recs <> [] -> exists i p, first_smallest (map (fun p => Rabs (log10 (fst p) - (c - pos / d))) recs) i /\ nth_error recs i = Some p /\
         out = match opt (Rpower 10 (c - pos / d)) (r_u (snd p)) with Ok sol => Ok (sol, map snd recs) | Raise e => Raise e end)
  end.
Proof.
  intros t out. unfold out, kink_choice, t. cbn [t_chi t_alphas t_opt]. rewrite !map_map.
  destruct (curve_fit _ _) as [[[[a b] c] d]|e].
  - split.
    + intros L. destruct (Rlt_dec d 0) as [_|N]; [reflexivity|contradiction].
    + intros L Hr. destruct (Rlt_dec d 0) as [N|_]; [lra|].
      destruct (argmin_spec (map (fun p => Rabs (log10 (fst p) - (c - pos / d))) recs)) as (i & Ei & Fi); [intros Z; apply map_eq_nil in Z; contradiction|].
      assert (M : map (fun x => Rabs (log10 x - (c - pos / d))) (map fst recs) = map (fun p => Rabs (log10 (fst p) - (c - pos / d))) recs) by (rewrite map_map; reflexivity).
      first [rewrite M, Ei | rewrite Ei | rewrite map_map, Ei]. cbn [bind]. assert (Hi : (i < List.length recs)%nat) by (destruct Fi as [Fi _]; rewrite map_length in Fi; exact Fi).
      destruct (nth_error recs i) as [p|] eqn:Ep; [|apply nth_error_None in Ep; lia]. exists i, p. split; [exact Fi|]. split; [exact Ep|].
      rewrite nth_error_map, Ep. cbn [option_map bind]. destruct (opt _ _); reflexivity.
  - split; [|split].
    + intros N. destruct e; try reflexivity. contradiction.
    + intros -> ->. reflexivity.
    + intros -> l a o ->. rewrite map_app. cbn [map]. unfold last_item. rewrite rev_app_distr. reflexivity.
Qed.
Print Assumptions C107_choice.

(** Along the recorded results the fit improves: with roots at every success, the misfit (of the kept kernel) never grows from one record to a later one and
    the entropy never grows. *)
Lemma successes_sorted opt div : 1 < div -> forall K start u, 0 < start ->
  (forall a o, In (a, o) (successes opt (weights start div K) u) -> 0 < a <= start /\ exists u', opt a u' = Ok o) /\
  forall i j p q, (i < j)%nat -> nth_error (successes opt (weights start div K) u) i = Some p -> nth_error (successes opt (weights start div K) u) j = Some q -> fst q < fst p.
Proof.
  intros Hd. induction K as [|K IH]; intros start u Hs.
  - rewrite weights_0. cbn [successes]. destruct (opt start u) as [o|e] eqn:E; cbn.
    + split; [intros a o' [H|[]]; injection H as <- <-; split; [lra|eauto]|]. intros [|[|i]] [|[|j]] p q Hij Hp Hq; cbn in *; try lia; discriminate.
    + split; [intros a o' []|]. intros [|i] j p q Hij Hp; discriminate.
  - rewrite weights_S. cbn [successes]. assert (D0 : 0 < start / div) by (apply Rdiv_lt_0_compat; lra).
    assert (D1 : start / div < start). { unfold Rdiv. assert (/ div < 1) by (rewrite <- Rinv_1; apply Rinv_lt_contravar; lra). nra. }
    destruct (opt start u) as [o|e] eqn:E.
    + destruct (IH (start / div) (r_u o) D0) as [I1 I2]. split.
      * intros a o' [H|H]; [injection H as <- <-; split; [lra|eauto]|]. destruct (I1 a o' H) as [B X]. split; [lra|exact X].
      * intros [|i] [|j] p q Hij Hp Hq; cbn [nth_error] in *; try lia; [|apply (I2 i j p q); [lia|exact Hp|exact Hq]].
        injection Hp as <-. cbn [fst]. destruct q as [a o']. destruct (I1 a o' (nth_error_In _ _ Hq)) as [B _]. cbn [fst]. lra.
    + destruct (IH (start / div) u D0) as [I1 I2]. split; [|exact I2]. intros a o' H. destruct (I1 a o' H) as [B X]. split; [lra|exact X].
Qed.
Theorem C107_improves v (opt : R -> vec -> res result) start div K i j p q : sensible (v_setup v) -> 0 < start -> 1 < div ->
  (forall a u o, opt a u = Ok o -> root_of (n_sv v) (compute_f_J v) a (r_u o)) ->
  let recs := successes opt (weights start div K) zeros in
  (i < j)%nat -> nth_error recs i = Some p -> nth_error recs j = Some q ->
  let s := v_setup v in let A r := singular_to_realspace v (r_u (snd r)) in
  fst q < fst p /\ misfit s (kept_kernel v) (A q) <= misfit s (kept_kernel v) (A p) /\ entropy_of s (A q) <= entropy_of s (A p).
Proof.
  intros OK Hs Hd Hr recs Hij Hp Hq s A. destruct (successes_sorted opt div Hd K start zeros Hs) as [I1 I2]. pose proof (I2 i j p q Hij Hp Hq) as L. split; [exact L|].
  destruct p as [a o], q as [a' o']. destruct (I1 a o (nth_error_In _ _ Hp)) as [B [u Hu]]. destruct (I1 a' o' (nth_error_In _ _ Hq)) as [B' [u' Hu']]. cbn [fst] in L.
  apply (alpha_monotone v a a' (r_u o) (r_u o') OK); [lra|exact L|apply (Hr _ _ _ Hu)|apply (Hr _ _ _ Hu')].
Qed.
Print Assumptions C107_improves.

(** Finding: the 'historic' search never ends if no weight brings the misfit down to the number of data. *)
Theorem C107_historic_refuted opt sci_newton niw fuel : (forall a, exists o, opt a zeros = Ok o /\ niw / r_chi2 o < 1) -> solve_historic opt sci_newton fuel niw = None.
Proof. intros H. unfold solve_historic. rewrite (historic_never opt niw H) by lra. reflexivity. Qed.
Print Assumptions C107_historic_refuted.

(** Finding: the 'historic' search overwrites the singular-space vector of the last but one result it has recorded, whose spectrum is kept. *)
Theorem C107_overwritten_finding opt sci_newton niw fuel pre o2 o a extra rl sol :
  historic_loop opt fuel niw (10 ^ 6) 0 [] = Some (Ok (pre ++ [o2; o])) -> sci_newton (r_alpha o) (r_u o2) = Ok (a, extra ++ [rl]) -> opt a (r_u rl) = Ok sol ->
  exists o2', solve_historic opt sci_newton fuel niw = Some (Ok (sol, pre ++ [o2'; o] ++ extra ++ [rl])) /\ r_u o2' = r_u rl /\ r_A o2' = r_A o2 /\ r_alpha o2' = r_alpha o2.
Proof.
  intros H1 H2 H3. exists (with_u o2 (r_u rl)). split; [|repeat split; reflexivity]. unfold solve_historic. rewrite H1.
  replace (Nat.leb (List.length (pre ++ [o2; o])) 1) with false by (symmetry; apply PeanoNat.Nat.leb_gt; rewrite app_length; cbn; lia).
  assert (R1 : removelast (pre ++ [o2; o]) = pre ++ [o2]). { change [o2; o] with ([o2] ++ [o]). rewrite app_assoc. apply removelast_last. }
  rewrite R1. unfold last_item. change [o2; o] with ([o2] ++ [o]) at 1. rewrite app_assoc, !rev_app_distr. cbn [rev app bind].
  rewrite H2. cbn [bind fst snd]. rewrite rev_app_distr. cbn [rev app]. rewrite H3. cbn [bind]. rewrite removelast_last. reflexivity.
Qed.
Print Assumptions C107_overwritten_finding.

(** Bryan's choice: when it ends, the samples are at 500 divided by powers of 1.1, the last one is less than a hundredth as probable as the most probable
    one, and the spectrum returned is an average of those found with positive weights adding up to 1. *)
Theorem C107_bryan optb fuel A acc : (forall a A p, optb a = Ok (A, p) -> 0 < p) -> solve_bryan optb fuel = Some (Ok (A, acc)) ->
  let n := List.length acc in let at_i i := nth i acc (Sample 0 zeros 0) in
  (2 <= n)%nat /\ (forall i, (i < n)%nat -> b_alpha (at_i i) = 500 / 1.1 ^ i /\ optb (b_alpha (at_i i)) = Ok (b_A (at_i i), b_prob (at_i i))) /\
  (exists pre s x, acc = pre ++ [s] /\ In x pre /\ (forall y, In y pre -> b_prob y <= b_prob x) /\ b_prob s < 0.01 * b_prob x) /\
  exists om : nat -> R, (forall i, (i < n)%nat -> 0 < om i) /\ rsum n om = 1 /\ forall l, A l = rsum n (fun i => om i * b_A (at_i i) l).
Proof.
  intros Hpos H n at_i. unfold solve_bryan in H. destruct (bryan_loop optb fuel 500 1.1 0 []) as [[out|e]|] eqn:E; try discriminate. injection H as <- <-.
  destruct (bryan_inv optb fuel 500 1.1 0 [] out ltac:(lra)) as (X1 & X2 & pre & s & best & X3 & X4 & X5 & X6 & X7); [intros s []|intros; lra|cbn; intros; lia|constructor|symmetry; apply weight_0|exact E|].
  rewrite Forall_forall in X2. assert (Ps : forall s, In s out -> 0 < b_prob s) by (intros s0 I; apply (Hpos (b_alpha s0) (b_A s0)), X2, I).
  assert (Hbest : 0 < best). { assert (0 < b_prob s) by (apply Ps; rewrite X3; apply in_or_app; right; left; reflexivity). lra. }
  destruct (X7 Hbest) as (x & Ix & Ex).
  assert (N2 : (2 <= n)%nat). { unfold n. rewrite X3, app_length. cbn. destruct pre; [destruct Ix|cbn; lia]. }
  split; [exact N2|]. split.
  { intros i Hi. split; [apply X1, Hi|]. apply X2. apply nth_In, Hi. }
  split. { exists pre, s, x. split; [exact X3|]. split; [exact Ix|]. rewrite Ex. split; [exact X6|exact X4]. }
  apply average_weights; [exact N2|exact Ps|]. intros i Hi. rewrite (X1 (S i) Hi), (X1 i ltac:(lia)). unfold weight_k. cbn [pow].
  assert (P : 0 < 1.1 ^ i) by (apply pow_lt; lra). unfold Rdiv. apply Rmult_lt_compat_l; [lra|]. apply Rinv_lt_contravar; nra.
Qed.
Print Assumptions C107_bryan.

(** Finding: Bryan's choice never ends if the probability does not depend on the weight (for instance when it underflows to zero). *)
Theorem C107_bryan_refuted optb p fuel : 0 <= p -> (forall a, exists A, optb a = Ok (A, p)) -> solve_bryan optb fuel = None.
Proof. intros Hp H. unfold solve_bryan. rewrite (bryan_never optb p Hp H) by (left; reflexivity). reflexivity. Qed.
Print Assumptions C107_bryan_refuted.

(** Only the four documented choices are accepted; without a choice a KeyError is raised. *)
Theorem C107_dispatch : solve_dispatch None = Raise KeyError /\
  (forall m c, solve_dispatch (Some m) = Ok c <-> (m = "historic" /\ c = Historic \/ m = "classic" /\ c = Classic \/ m = "bryan" /\ c = Bryan \/ m = "chi2kink" /\ c = Kink)%string) /\
  (forall m, m <> "historic" -> m <> "classic" -> m <> "bryan" -> m <> "chi2kink" -> solve_dispatch (Some m) = Raise ValueError)%string.
Proof.
  split; [reflexivity|]. unfold solve_dispatch. split.
  - intros m c. split.
    + destruct (String.eqb_spec m "historic"); [intros H; injection H as <-; auto|]. destruct (String.eqb_spec m "classic"); [intros H; injection H as <-; auto|].
      destruct (String.eqb_spec m "bryan"); [intros H; injection H as <-; auto|]. destruct (String.eqb_spec m "chi2kink"); [intros H; injection H as <-; tauto|]. discriminate.
    + intros [[-> ->]|[[-> ->]|[[-> ->]|[-> ->]]]]; reflexivity.
  - intros m H1 H2 H3 H4. rewrite (proj2 (String.eqb_neq _ _) H1), (proj2 (String.eqb_neq _ _) H2), (proj2 (String.eqb_neq _ _) H3), (proj2 (String.eqb_neq _ _) H4). reflexivity.
Qed.
Print Assumptions C107_dispatch.

(** concrete runs: three weights of which the second fails, and a Bryan run of two samples *)
Definition ex_opt (a : R) (u : vec) : res result := if Req_EM_T a 10 then Raise RuntimeError else Ok (Result (fun _ => a + u 0%nat) (fun _ => 1) 0 a 0 a 1 0).
Example C107_ex : last_tried 100 1 10 2 /\ map fst (successes ex_opt (weights 100 10 2) zeros) = [100; 1] /\
  map (fun p => r_u (snd p) 0%nat) (successes ex_opt (weights 100 10 2) zeros) = [100; 101].
Proof.
  assert (W : weights 100 10 2 = [100; 10; 1]). { unfold weights, weight_k. cbn [seq map pow]. repeat (f_equal; try field). }
  split.
  - split; [intros k Hk; unfold weight_k; destruct k as [|[|k]]; [cbn [pow]; lra|cbn [pow]; lra|lia]|unfold weight_k; cbn [pow]; lra].
  - rewrite W. cbn [successes]. unfold ex_opt. destruct (Req_EM_T 100 10); [lra|]. destruct (Req_EM_T 10 10); [|lra]. destruct (Req_EM_T 1 10); [lra|].
    cbn. unfold zeros. split; [reflexivity|]. repeat f_equal; lra.
Qed.
Definition ex_optb (a : R) : res (vec * R) := Ok ((fun _ => a), if Req_EM_T a 500 then 1 else 0.001).
Example C107_bryan_ex : exists A, solve_bryan ex_optb 2 = Some (Ok (A, [Sample 500 (fun _ => 500) 1; Sample (500 / 1.1) (fun _ => 500 / 1.1) 0.001])).
Proof.
  eexists. unfold solve_bryan. cbn [bryan_loop]. unfold ex_optb. destruct (Req_EM_T 500 500); [|lra]. destruct (Rlt_dec 0 1); [|lra].
  destruct (Req_EM_T (500 / 1.1) 500) as [H|H]; [exfalso; lra|]. destruct (Rlt_dec 1 0.001); [lra|]. destruct (Rlt_dec 0.001 (0.01 * 1)); [|lra]. reflexivity.
Qed.
