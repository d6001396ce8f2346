(** Model of /repo/src/dga/lambda_correction.py.

    A susceptibility array of shape [nkx,nky,nkz,nw] is the list (over the
    flattened momenta) of its rows over the bosonic frequencies.  Entries are
    complex numbers over an arbitrary real closed field [R] (numpy complex128
    without rounding); [1./0.] (numpy: inf) is the field's total inverse, so the
    theorems assume the divisors they need non-zero. *)
From mathcomp Require Import all_ssreflect all_algebra.
From mathcomp.real_closed Require Import complex.
From Coq Require Import String.
From Verif Require Import Base.PyBase.
Import GRing.Theory Num.Theory.
Set Implicit Arguments. Unset Strict Implicit. Unset Printing Implicit Defensive.
Local Open Scope ring_scope.
Local Open Scope complex_scope.

Section Lambda.
Variable R : rcfType.
Notation C := R[i].

(** [np.sum(m, axis=-1)] and [np.mean] over the remaining axes. *)
Definition row_sum (r : list C) : C := \sum_(x <- r) x.
Definition np_mean (l : list C) : C := (\sum_(x <- l) x) / (seq.size l)%:R.
Definition amap (f : C -> C) (m : list (list C)) : list (list C) := [seq [seq f x | x <- r] | r <- m].
Definition mean_of_sums (m : list (list C)) : C := np_mean [seq row_sum r | r <- m].

(** [np.min] of a non-empty list. *)
Definition np_min (l : list R) : res R :=
  match l with [::] => Raise ValueError | x :: l' => Ok (foldl Num.min x l') end.

(** lambda_correction.py:13-16 [get_lambda_start]; [nw] is [chi_r.shape[-1]]. *)
Definition get_lambda_start (nw : nat) (chi : list (list C)) : res R :=
  let! m := np_min [seq 1 / complex.Re (seq.nth 0 r (nw./2)) | r <- chi] in Ok (- m).

(** lambda_correction.py:70-71 [use_lambda]. *)
Definition use_lambda (chi : list (list C)) (lam : R) : list (list C) :=
  amap (fun x => 1 / (1 / x + lam%:C)) chi.

(** lambda_correction.py:26-28: the two means evaluated at [lambda_]. *)
Definition f_lam (beta : R) (chi : list (list C)) (t : C) (lam : R) : C :=
  1 / beta%:C * mean_of_sums (amap (fun x => 1 / (1 / x + lam%:C)) chi) - t.
Definition fp_lam (beta : R) (chi : list (list C)) (lam : R) : C :=
  - 1 / beta%:C * mean_of_sums (amap (fun x => (1 / (1 / x + lam%:C)) ^+ 2) chi).

(** lambda_correction.py:25-39: the loop body, [n] iterations left.  The second
    component says whether the loop was left by [break] (line 32); the code
    returns only the first. *)
Fixpoint lam_loop (beta : R) (chi : list (list C)) (t : C) (lam_start eps : R)
    (n : nat) (delta lam_old lam : R) : R * bool :=
  match n with
  | O => (lam, false)
  | S n' =>
      let f := f_lam beta chi t lam in
      let fp := fp_lam beta chi lam in
      let lam1 := lam_old - complex.Re (f / fp) in
      if `|complex.Re f| < eps then (lam1, true)
      else if lam1 < lam_old
           then let delta1 := delta / 2%:R in
                lam_loop beta chi t lam_start eps n' delta1 (lam_start + delta1) (lam_start + delta1)
           else lam_loop beta chi t lam_start eps n' delta lam1 lam1
  end.

(** lambda_correction.py:19-40 [lambda_correction_single]. *)
Definition lambda_correction_single_full (beta lam_start : R) (chi : list (list C)) (t : C)
    (maxiter : nat) (eps delta : R) : R * bool :=
  lam_loop beta chi t lam_start eps maxiter delta (lam_start + delta) (lam_start + delta).
Definition lambda_correction_single beta lam_start chi t maxiter eps delta : R :=
  (lambda_correction_single_full beta lam_start chi t maxiter eps delta).1.
(** The defaults of line 21. *)
Definition default_maxiter : nat := 1000.
Definition default_eps : R := (10%:R ^+ 7)^-1.
Definition default_delta : R := 10%:R^-1.

(** [1/beta*np.sum(chi_loc)] of a local susceptibility (one row). *)
Definition loc_sum (beta : R) (chi_loc : list C) : C := 1 / beta%:C * row_sum chi_loc.
(** [chi_loc_magn + chi_loc_dens]: numpy raises ValueError unless shapes agree
    (a length-1 operand would broadcast; not modelled). *)
Definition vadd (a b : list C) : res (list C) :=
  if seq.size a == seq.size b then Ok [seq x.1 + x.2 | x <- zip a b] else Raise ValueError.

(** lambda_correction.py:43-67 [lambda_correction]; [maxiter], [eps] and [delta]
    are the defaults of [lambda_correction_single] in the code. *)
Definition lambda_correction_gen (maxiter : nat) (eps delta : R) (nw : nat)
    (chi_lad_dens chi_lad_magn : list (list C)) (beta : R) (chi_loc_dens chi_loc_magn : list C)
    (lambda_corr : string) : res (list (list C) * list (list C) * R * R) :=
  if String.eqb lambda_corr "spch" then
    let! s_d := get_lambda_start nw chi_lad_dens in
    let lambda_dens := lambda_correction_single beta s_d chi_lad_dens (loc_sum beta chi_loc_dens) maxiter eps delta in
    let chi_d := use_lambda chi_lad_dens lambda_dens in
    let! s_m := get_lambda_start nw chi_lad_magn in
    let lambda_magn := lambda_correction_single beta s_m chi_lad_magn (loc_sum beta chi_loc_magn) maxiter eps delta in
    let chi_m := use_lambda chi_lad_magn lambda_magn in
    Ok (chi_d, chi_m, lambda_dens, lambda_magn)
  else if String.eqb lambda_corr "sp" then
    let! s_m := get_lambda_start nw chi_lad_magn in
    let! both := vadd chi_loc_magn chi_loc_dens in
    let t := 1 / beta%:C * row_sum both - 1 / beta%:C * mean_of_sums chi_lad_dens in
    let lambda_magn := lambda_correction_single beta s_m chi_lad_magn t maxiter eps delta in
    let chi_m := use_lambda chi_lad_magn lambda_magn in
    Ok (chi_lad_dens, chi_m, 0, lambda_magn)
  else if String.eqb lambda_corr "none" then Ok (chi_lad_dens, chi_lad_magn, 0, 0)
  else Raise NotImplementedError.
Definition lambda_correction := lambda_correction_gen default_maxiter default_eps default_delta.
End Lambda.
