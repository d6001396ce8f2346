(** Vocabulary for the Bayesian quantities of the maximum-entropy solver (C112). *)
From Coq Require Import Reals.
From Coq Require Import List.
From Verif Require Import Base.PyBase Base.RSum Model.AnaSolver Model.AnaAlpha Model.AnaBayes Spec.AnaSolverSpec Spec.AnaAlphaSpec.
Import ListNotations.
Local Open Scope R_scope.

Definition symmetric (n : nat) (M : nat -> nat -> R) : Prop := forall i j, (i < n)%nat -> (j < n)%nat -> M i j = M j i.
(** [lam] are the eigenvalues of the matrix, with their multiplicities *)
Definition eigenvalues (n : nat) (M : nat -> nat -> R) (lam : nat -> R) : Prop := exists Q : nat -> nat -> R,
  (forall i j, (i < n)%nat -> (j < n)%nat -> M i j = rsum n (fun k => Q i k * lam k * Q j k)) /\
  (forall k l, (k < n)%nat -> (l < n)%nat -> rsum n (fun i => Q i k * Q i l) = if Nat.eqb k l then 1 else 0) /\
  (forall i j, (i < n)%nat -> (j < n)%nat -> rsum n (fun k => Q i k * Q j k) = if Nat.eqb i j then 1 else 0).
(** what is assumed of numpy's routine *)
Definition finds_eigenvalues (eigvalsh : nat -> (nat -> nat -> R) -> res (nat -> R)) : Prop :=
  forall n M lam, symmetric n M -> eigvalsh n M = Ok lam -> eigenvalues n M lam.
(** G = M (alpha + M)^-1 *)
Definition share_of (n : nat) (alpha : R) (M G : nat -> nat -> R) : Prop :=
  forall i k, (i < n)%nat -> (k < n)%nat -> rsum n (fun j => G i j * ((if Nat.eqb j k then alpha else 0) + M j k)) = M i k.
Definition trace (n : nat) (G : nat -> nat -> R) : R := rsum n (fun i => G i i).
Fixpoint rprod (n : nat) (f : nat -> R) : R := match n with O => 1 | S m => rprod m f * f m end.
Definition second_derivative (f : R -> R) (x c : R) : Prop :=
  exists g, (exists eps, 0 < eps /\ forall y, Rabs (y - x) < eps -> derivable_pt_lim f y (g y)) /\ derivable_pt_lim g x c.
(** the second derivative of the entropy with respect to the [i]-th value of the spectrum *)
Definition entropy_curvature (s : setup) (A : nat -> R) (i : nat) (c : R) : Prop :=
  second_derivative (fun y => entropy_of s (set_at A i y)) (A i) c.
(** the mixed second derivatives (times one half) of the misfit, exactly *)
Definition is_half_hessian (s : setup) (A : nat -> R) (H : nat -> nat -> R) : Prop := exists g : nat -> R, forall h : nat -> R,
  misfit s (s_K s) (fun l => A l + h l) = misfit s (s_K s) A + rsum (s_nw s) (fun l => g l * h l) + rsum (s_nw s) (fun i => rsum (s_nw s) (fun j => h i * H i j * h j)).

(** the criterion is below 1 *)
Definition under_one (c : ext) : Prop := match c with Fin x => x < 1 | NegInf => True | PosInf | NaN => False end.
(** the results at 10^6, 10^5, ..., each started from zeros: all but the last have a criterion below 1 *)
Definition descent (opt : R -> (nat -> R) -> res bresult) (recs : list bresult) (last : bresult) : Prop :=
  (forall i, (i < length recs)%nat -> opt (weight_k (10 ^ 6) 10 i) (fun _ => 0) = Ok (nth i recs last)) /\
  (forall i, (S i < length recs)%nat -> under_one (br_conv (nth i recs last))) /\
  (exists pre, recs = pre ++ [last]) /\ ~ under_one (br_conv last).
(** only the singular-space vector may differ *)
Definition same_but_u (a b : bresult) : Prop :=
  r_A (br a) = r_A (br b) /\ r_alpha (br a) = r_alpha (br b) /\ r_entropy (br a) = r_entropy (br b) /\ r_chi2 (br a) = r_chi2 (br b) /\
  br_ng a = br_ng b /\ br_tr a = br_tr b /\ br_conv a = br_conv b /\ br_prob a = br_prob b.
(** the optimizer asked for returns roots only *)
Definition finds_roots (optimizer : nat -> ((nat -> R) -> R -> (nat -> R) * (nat -> nat -> R)) -> (nat -> R) -> R -> res (nat -> R)) (v : solver) : Prop :=
  forall u0 alpha u, 0 < alpha -> optimizer (n_sv v) (compute_f_J v) u0 alpha = Ok u -> root_of (n_sv v) (compute_f_J v) alpha u.
