(** C35: the lambda correction (lambda_correction.py). *)
From mathcomp Require Import all_ssreflect all_algebra.
From mathcomp.real_closed Require Import complex realalg.
From Coq Require Import String.
From Verif Require Import Base.PyBase Model.Lambda Spec.LambdaSpec Proofs.LambdaP Proofs.LambdaMainP.
Import Order.Theory GRing.Theory Num.Theory.
Set Implicit Arguments. Unset Strict Implicit. Unset Printing Implicit Defensive.
Local Open Scope nat_scope.
Local Open Scope ring_scope.

Section C35.
Variable R : rcfType.

(** The corrected susceptibility of any complex data is obtained by adding
    lambda to the inverse of every entry. *)
Theorem C35_use_lambda_shifts_inverse (chi : list (list R[i])) (lam : R) :
  [seq [seq x^-1 | x <- r] | r <- use_lambda chi lam] = [seq [seq x^-1 + lam%:C | x <- r] | r <- chi]%C.
Proof.
  rewrite /use_lambda /amap -map_comp. apply: eq_map => r /=. rewrite -map_comp. apply: eq_map => x /=.
  by rewrite !div1r invrK.
Qed.
Print Assumptions C35_use_lambda_shifts_inverse.

(** Newton search on a physical susceptibility: whatever the iteration limit, the
    returned lambda lies above the pole -min 1/chi(q,0), so the corrected
    susceptibility is positive; if the search stopped by its criterion, the sum
    rule holds to the requested accuracy. *)
Theorem C35_single_ok nw (chi : list (list R)) (start beta t : R) maxiter (eps delta : R) :
  physical nw chi -> get_lambda_start nw (to_complex chi) = Ok start -> 0 < beta -> 0 < delta ->
  eps * delta * (beta * (seq.size chi)%:R) <= 2%:R^-1 ->
  let r := lambda_correction_single_full beta start (to_complex chi) t%:C%C maxiter eps delta in
  [/\ start < r.1, all_positive (shift_inverse r.1 chi) &
      r.2 -> 0 <= total beta (shift_inverse r.1 chi) - t < eps].
Proof. exact: single_ok. Qed.
Print Assumptions C35_single_ok.

(** The search succeeds: for every positive target and tolerance some iteration
    limit suffices (and every larger one). *)
Theorem C35_single_converges nw (chi : list (list R)) (start beta t eps delta : R) :
  (forall y : R, exists n : nat, y < n%:R) ->
  physical nw chi -> get_lambda_start nw (to_complex chi) = Ok start -> 0 < beta -> 0 < delta -> 0 < t -> 0 < eps ->
  exists N, forall maxiter, (N <= maxiter)%nat ->
    (lambda_correction_single_full beta start (to_complex chi) t%:C%C maxiter eps delta).2.
Proof. exact: single_converges. Qed.
Print Assumptions C35_single_converges.

(** The lambda that fulfils a sum rule above the pole is unique. *)
Theorem C35_lambda_unique nw (chi : list (list R)) (start beta l1 l2 : R) :
  physical nw chi -> get_lambda_start nw (to_complex chi) = Ok start -> 0 < beta -> start < l1 -> start < l2 ->
  total beta (shift_inverse l1 chi) = total beta (shift_inverse l2 chi) -> l1 = l2.
Proof. exact: sum_rule_unique. Qed.
Print Assumptions C35_lambda_unique.

(** Spin and charge correction. *)
Theorem C35_spch maxiter (eps delta : R) nw (chi_d chi_m : list (list R)) (beta : R) (loc_d loc_m : list R) :
  physical nw chi_d -> physical nw chi_m -> 0 < beta -> 0 < delta ->
  eps * delta * (beta * (seq.size chi_d)%:R) <= 2%:R^-1 -> eps * delta * (beta * (seq.size chi_m)%:R) <= 2%:R^-1 ->
  exists ld lm,
    lambda_correction_gen maxiter eps delta nw (to_complex chi_d) (to_complex chi_m) beta
        (to_complex1 loc_d) (to_complex1 loc_m) "spch"
      = Ok (to_complex (shift_inverse ld chi_d), to_complex (shift_inverse lm chi_m), ld, lm) /\
    all_positive (shift_inverse ld chi_d) /\ all_positive (shift_inverse lm chi_m).
Proof. exact: correction_spch. Qed.
Print Assumptions C35_spch.
Theorem C35_spch_sum_rules (eps delta : R) nw (chi_d chi_m : list (list R)) (beta : R) (loc_d loc_m : list R) :
  (forall y : R, exists n : nat, y < n%:R) ->
  physical nw chi_d -> physical nw chi_m -> 0 < beta -> 0 < delta -> 0 < eps ->
  eps * delta * (beta * (seq.size chi_d)%:R) <= 2%:R^-1 -> eps * delta * (beta * (seq.size chi_m)%:R) <= 2%:R^-1 ->
  0 < local_total beta loc_d -> 0 < local_total beta loc_m ->
  exists N, forall maxiter, (N <= maxiter)%nat -> exists ld lm,
    [/\ lambda_correction_gen maxiter eps delta nw (to_complex chi_d) (to_complex chi_m) beta
            (to_complex1 loc_d) (to_complex1 loc_m) "spch"
        = Ok (to_complex (shift_inverse ld chi_d), to_complex (shift_inverse lm chi_m), ld, lm),
        0 <= total beta (shift_inverse ld chi_d) - local_total beta loc_d < eps &
        0 <= total beta (shift_inverse lm chi_m) - local_total beta loc_m < eps].
Proof. exact: correction_spch_converges. Qed.
Print Assumptions C35_spch_sum_rules.
(** Spin-only correction: the density susceptibility is untouched and the total
    (density plus magnetic) sum rule is restored. *)
Theorem C35_sp maxiter (eps delta : R) nw (chi_d chi_m : list (list R)) (beta : R) (loc_d loc_m : list R) :
  physical nw chi_m -> 0 < beta -> 0 < delta -> seq.size loc_d = seq.size loc_m ->
  eps * delta * (beta * (seq.size chi_m)%:R) <= 2%:R^-1 ->
  exists lm,
    lambda_correction_gen maxiter eps delta nw (to_complex chi_d) (to_complex chi_m) beta
        (to_complex1 loc_d) (to_complex1 loc_m) "sp"
      = Ok (to_complex chi_d, to_complex (shift_inverse lm chi_m), 0, lm) /\
    all_positive (shift_inverse lm chi_m).
Proof. exact: correction_sp. Qed.
Print Assumptions C35_sp.
Theorem C35_sp_sum_rule (eps delta : R) nw (chi_d chi_m : list (list R)) (beta : R) (loc_d loc_m : list R) :
  (forall y : R, exists n : nat, y < n%:R) ->
  physical nw chi_m -> 0 < beta -> 0 < delta -> 0 < eps -> seq.size loc_d = seq.size loc_m ->
  eps * delta * (beta * (seq.size chi_m)%:R) <= 2%:R^-1 ->
  total beta chi_d < local_total beta loc_d + local_total beta loc_m ->
  exists N, forall maxiter, (N <= maxiter)%nat -> exists lm,
    lambda_correction_gen maxiter eps delta nw (to_complex chi_d) (to_complex chi_m) beta
        (to_complex1 loc_d) (to_complex1 loc_m) "sp"
      = Ok (to_complex chi_d, to_complex (shift_inverse lm chi_m), 0, lm) /\
    0 <= (total beta chi_d + total beta (shift_inverse lm chi_m))
         - (local_total beta loc_d + local_total beta loc_m) < eps.
Proof. exact: correction_sp_converges. Qed.
Print Assumptions C35_sp_sum_rule.
(** No correction; unknown keyword. *)
Theorem C35_none maxiter (eps delta : R) nw (chi_d chi_m : list (list R[i])) beta loc_d loc_m :
  lambda_correction_gen maxiter eps delta nw chi_d chi_m beta loc_d loc_m "none" = Ok (chi_d, chi_m, 0, 0).
Proof. by []. Qed.
Print Assumptions C35_none.
Theorem C35_unknown_raises maxiter (eps delta : R) nw (chi_d chi_m : list (list R[i])) beta loc_d loc_m kw :
  kw <> "spch"%string -> kw <> "sp"%string -> kw <> "none"%string ->
  lambda_correction_gen maxiter eps delta nw chi_d chi_m beta loc_d loc_m kw = Raise NotImplementedError.
Proof.
  move=> /String.eqb_neq h1 /String.eqb_neq h2 /String.eqb_neq h3.
  by rewrite /lambda_correction_gen h1 h2 h3.
Qed.
Print Assumptions C35_unknown_raises.
(** Finding: an exhausted search is not reported.  For every iteration limit and
    tolerance there is a target for which a lambda violating the sum rule is
    returned as if it were converged. *)
Theorem C35_exhaustion_silent_refuted maxiter (eps delta : R) : 0 < eps -> 0 < delta ->
  exists t, let lam := lambda_correction_single 1 (-1) (to_complex [:: [:: 1]]) t%:C%C maxiter eps delta in
    eps <= `|total 1 (shift_inverse lam [:: [:: 1]]) - t|.
Proof. move=> he hd. have [t [_ h]] := exhaust maxiter he hd. by exists t. Qed.
Print Assumptions C35_exhaustion_silent_refuted.

(** Non-vacuity: two momenta, three frequencies, and the code's default eps and delta. *)
Definition ex_chi : list (list R) := [:: [:: 1; 2%:R; 1]; [:: 1; 3%:R; 1]].
Lemma ex_physical : physical 3 ex_chi.
Proof.
  have h1 : (0 : R) < 1 by exact: ltr01. have h2 : (0 : R) < 2%:R by rewrite ltr0n. have h3 : (0 : R) < 3%:R by rewrite ltr0n.
  have h4 : (1 : R) <= 2%:R by rewrite ler1n. have h5 : (1 : R) <= 3%:R by rewrite ler1n.
  split=> //.
  - by move=> r; rewrite !inE => /orP[] /eqP ->.
  - move=> r; rewrite !inE => /orP[] /eqP -> x; rewrite !inE => /orP[/eqP->|/orP[/eqP->|/eqP->]] //.
  - move=> r; rewrite !inE => /orP[] /eqP -> x; rewrite !inE => /orP[/eqP->|/orP[/eqP->|/eqP->]] //.
Qed.
Example ex_C35 : let beta := 10%:R in exists start,
  get_lambda_start 3 (to_complex ex_chi) = Ok start /\ physical 3 ex_chi /\ 0 < beta :> R /\ 0 < default_delta R /\
  default_eps R * default_delta R * (beta * (seq.size ex_chi)%:R) <= 2%:R^-1.
Proof.
  have [ls [h _ _]] := phys_start ex_physical. exists ls.
  split; [done|split; [exact: ex_physical|split; [by rewrite ltr0n|split]]].
  - by rewrite /default_delta invr_gt0 ltr0n.
  - rewrite /default_eps /default_delta -invfM -exprSr mulrC -natrM.
    have h10 : (0 : R) < 10%:R by rewrite ltr0n.
    rewrite ler_pdivr_mulr ?exprn_gt0 // mulrC ler_pdivl_mulr ?ltr0n // -natrM.
    apply: (@le_trans _ _ (10%:R ^+ 2)).
    + by rewrite -natrX ler_nat.
    + by apply: ler_weexpn2l; rewrite ?ler1n.
Qed.
End C35.
(** Archimedean real closed fields exist: the real algebraic numbers. *)
Example ex_arch (y : {realclosure rat}) : exists n : nat, y < n%:R.
Proof. have h := archi_boundP (normr_ge0 y). exists (Num.bound `|y|). exact: le_lt_trans (ler_norm y) h. Qed.
