(** Model of the Bayesian quantities of the maximum-entropy solver and of the 'classic' choice of the weight of the entropy,
    /repo/src/ana_cont/solvers.py lines 204-207 (curvature), 402-494 (criterion and probability), 582-595 (their part of the optimization),
    657-728 (classic), 764-776 (Bryan, whose loop is in Model/AnaAlpha.v) and 950-990 (fields that stay None).

    Floating-point numbers are real numbers, except that dividing by zero is kept apart.  The entropy of the default model is computed as +0.0 by
    lines 364 and 380, so that [ng] is then -0.0 and a positive trace divided by it is minus infinity; this is the sign given to a zero [ng].
    The eigenvalue routine of numpy, the optimizers and scipy's [newton] are parameters.  Left out: the texts printed and lines 489 and 491-492, which
    print the eigenvalues if numpy's warnings have been turned into exceptions. *)
From Coq Require Import Reals List String.
From Verif Require Import Base.PyBase Base.RSum Model.AnaSolver Model.AnaAlpha.
Import ListNotations.
Local Open Scope R_scope.

(** floating-point results of a division *)
Inductive ext := Fin (x : R) | PosInf | NegInf | NaN.
(** [tr / ng] (lines 432 and 461); a zero [ng] is -0.0 *)
Definition ratio (tr ng : R) : ext :=
  if Req_EM_T ng 0 then (if Rlt_dec 0 tr then NegInf else if Rlt_dec tr 0 then PosInf else NaN) else Fin (tr / ng).
(** [conv < 1] *)
Definition below_one (c : ext) : bool := match c with Fin x => if Rlt_dec x 1 then true else false | NegInf => true | PosInf | NaN => false end.

Section Bayes.
(** [np.linalg.eigvalsh] *)
Variable eigvalsh : nat -> mat -> res vec.
Section Quantities.
Variable v : solver.
Let s := v_setup v.
Let nw := s_nw s. Let dw := s_dw s.

(** lines 205-207 *)
Definition d2chi2 : mat := fun i j => rsum (s_niw s) (fun k => dw i * dw j * s_K s k i * s_K s k j * s_E s k).
(** line 424 and line 483 *)
Definition lambda_diag (A : vec) : mat := fun i j => sqrt (A i / dw i) * d2chi2 i j * sqrt (A j / dw j).
(** lines 456-457; the base of the power is positive *)
Definition lambda_off (A : vec) : mat :=
  let A_sq := fun l => Rpower ((A l ^ 2 + 4 * s_model s l * s_model s l) / dw l ^ 2) 0.25 in fun i j => A_sq i * d2chi2 i j * A_sq j.
(** lines 425-429 and 484-488: if the eigenvalues are not found the diagonal is taken *)
Definition eig_or_diag (M : mat) : res vec :=
  match eigvalsh nw M with Ok lam => Ok lam | Raise LinAlgError => Ok (fun i => M i i) | Raise e => Raise e end.
(** line 431 and line 460 *)
Definition trace_of (lam : vec) (alpha : R) : R := rsum nw (fun i => lam i / (alpha + lam i)).
(** line 430 and line 459 *)
Definition n_good (entr alpha : R) : R := - 2 * alpha * entr.
(** lines 402-433 *)
Definition bayes_conv (A : vec) (entr alpha : R) : res (R * R * ext) :=
  let! lam := eig_or_diag (lambda_diag A) in
  let ng := n_good entr alpha in let tr := trace_of lam alpha in Ok (ng, tr, ratio tr ng).
(** lines 435-462 *)
Definition bayes_conv_offdiag (A : vec) (entr alpha : R) : res (R * R * ext) :=
  let! lam := eigvalsh nw (lambda_off A) in
  let ng := n_good entr alpha in let tr := trace_of lam alpha in Ok (ng, tr, ratio tr ng).
(** lines 464-494 *)
Definition posterior_probability (A : vec) (alpha entr chisq : R) : res R :=
  let! lam := eig_or_diag (lambda_diag A) in
  let eig_sum := rsum nw (fun i => ln (alpha / (alpha + lam i))) in
  Ok (exp (alpha * entr - 0.5 * chisq + ln alpha + 0.5 * eig_sum)).
End Quantities.

(** the result with its Bayesian fields; the probability stays None for off-diagonal elements *)
Record bresult := BResult { br : result; br_ng : R; br_tr : R; br_conv : ext; br_prob : option R }.
Section Optimization.
Variables newton scipy_lm : nat -> (vec -> R -> vec * mat) -> vec -> R -> res vec.
Variable blur : option (R * (vec -> res vec)).
(** lines 496-600 with [use_bayes=True]; the spectrum before blurring is used *)
Definition maxent_bayes (v : solver) (optimizer : string) (alpha : R) (ustart : vec) : res bresult :=
  let! r := maxent_optimization newton scipy_lm blur v optimizer alpha ustart in
  let A := singular_to_realspace v (r_u r) in
  let! c := (if s_off (v_setup v) then bayes_conv_offdiag v A (r_entropy r) alpha else bayes_conv v A (r_entropy r) alpha) in
  let '(ng, tr, conv) := c in
  if s_off (v_setup v) then Ok (BResult r ng tr conv None)
  else let! p := posterior_probability v A alpha (r_entropy r) (r_chi2 r) in Ok (BResult r ng tr conv (Some p)).
End Optimization.
End Bayes.

Section Classic.
(** [self.maxent_optimization(alpha, ustart, use_bayes=True)] *)
Variable opt : R -> vec -> res bresult.
(** lines 683-694: always started from zeros *)
Fixpoint classic_loop (fuel : nat) (alpha : R) (conv : ext) (acc : list bresult) : option (res (list bresult)) :=
  match fuel with
  | O => None
  | S fuel' =>
    if below_one conv then
      match opt alpha zeros with
      | Raise e => Some (Raise e)
      | Ok o => classic_loop fuel' (alpha / 10) (br_conv o) (acc ++ [o])%list
      end
    else Some (Ok acc)
  end.
(** [np.log10] of a number with a finite logarithm *)
Definition log_of (c : ext) : option R := match c with Fin x => if Rlt_dec 0 x then Some (log10 x) else None | _ => None end.
(** lines 700-709; [None] is an infinite or undefined number *)
Definition predict (o2 o1 : bresult) : option R :=
  match log_of (br_conv o2), log_of (br_conv o1) with
  | Some c2, Some c1 =>
    if Req_EM_T (c1 - c2) 0 then None
    else let a2 := log10 (r_alpha (br o2)) in let a1 := log10 (r_alpha (br o1)) in Some (Rpower 10 (a2 - c2 * (a1 - a2) / (c1 - c2)))
  | _, _ => None
  end.
(** scipy's [newton(root_fun, alpha_opt, tol=1e-6, args=(ustart,))]: the root and the results appended by the evaluations of [root_fun] *)
Variable sci_newton : option R -> vec -> res (R * list bresult).
Definition bwith_u (b : bresult) (u : vec) : bresult := BResult (with_u (br b) u) (br_ng b) (br_tr b) (br_conv b) (br_prob b).
(** lines 657-728; as in [solve_historic] (Model/AnaAlpha.v) the array [ustart] is that of the last but one result and every evaluation overwrites it *)
Definition solve_classic (fuel : nat) : option (res (bresult * list bresult)) :=
  match classic_loop fuel (10 ^ 6) (Fin 0) [] with
  | None => None
  | Some (Raise e) => Some (Raise e)
  | Some (Ok acc) =>
    Some (if Nat.leb (List.length acc) 1 then Raise RuntimeError
          else
            let! o1 := last_item acc in
            let! o2 := last_item (removelast acc) in
            let u2 := r_u (br o2) in
            let! an := sci_newton (predict o2 o1) u2 in
            let u := match rev (snd an) with [] => u2 | b :: _ => r_u (br b) end in
            let all := (removelast (removelast acc) ++ [bwith_u o2 u; o1] ++ snd an)%list in
            let! sol := opt (fst an) u in
            Ok (sol, all))
  end.
End Classic.

(** what a round of Bryan's loop (lines 765-772) gets from an optimization: comparing a probability of None with a number is a TypeError *)
Definition bryan_sample (opt : R -> vec -> res bresult) (alpha : R) : res (vec * R) :=
  let! b := opt alpha zeros in match br_prob b with Some p => Ok (r_A (br b), p) | None => Raise TypeError end.
