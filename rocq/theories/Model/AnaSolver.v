(** Model of the maximum-entropy solver of the package vendored in the repository, /repo/src/ana_cont/solvers.py lines 120-600.

    Floating-point numbers are real numbers (no overflow, no nan, division by zero is total); an array is the function of its indices, with its
    sizes kept beside it.  The singular value decomposition, the optimizers (Model/AnaNewton.v models the default one) and the blurring of the
    result (Model/AnaKernel.v) are parameters.  Left out: printing, the Bayesian quantities (Model/AnaBayes.v; used by the 'classic' and 'bryan'
    choices of alpha only). *)
From Coq Require Import Reals List String.
From Verif Require Import Base.PyBase Base.RSum.
Import ListNotations.
Local Open Scope R_scope.

Definition vec := nat -> R.
Definition mat := nat -> nat -> R.
Definition cpx := (R * R)%type.

(** lines 128-131: the array whose differences are the weights: first mesh point, midpoints, last mesh point ([n] + 1 entries) *)
Definition edge (n : nat) (w : vec) (i : nat) : R :=
  if Nat.eqb i 0 then w 0%nat else if Nat.eqb i n then w (n - 1)%nat else (w i + w (i - 1)%nat) / 2.
(** lines 128-131: [np.diff] *)
Definition dw_of (n : nat) (w : vec) : vec := fun i => edge n w (S i) - edge n w i.
(** [np.trapz(y, x)] for [n] points *)
Definition trapz (n : nat) (y x : vec) : R := rsum (n - 1) (fun i => (x (S i) - x i) * (y (S i) + y i) / 2).

(** The state after line 162: number of imaginary-axis points, real axis, (rotated, possibly blurred) kernel matrix, whether the kernel is
    'freq_fermionic', default model, (rotated) data and variances. *)
Record setup := Setup { s_nim : nat; s_nw : nat; s_w : vec; s_kernel : nat -> nat -> cpx; s_fermi : bool; s_model : vec; s_data_c : nat -> cpx; s_var : vec; s_off : bool }.
(** lines 164-169: real and imaginary parts one after the other for 'freq_fermionic' *)
Definition s_niw (s : setup) : nat := if s_fermi s then (2 * s_nim s)%nat else s_nim s.
Definition s_data (s : setup) : vec := fun k =>
  if s_fermi s then (if Nat.ltb k (s_nim s) then fst (s_data_c s k) else snd (s_data_c s (k - s_nim s))) else fst (s_data_c s k).
Definition s_E (s : setup) : vec := fun k => 1 / s_var s (if s_fermi s then (if Nat.ltb k (s_nim s) then k else k - s_nim s) else k)%nat.
(** kernels.py lines 179-184 [real_matrix] *)
Definition s_K (s : setup) : mat := fun k l =>
  if s_fermi s then (if Nat.ltb k (s_nim s) then fst (s_kernel s k l) else snd (s_kernel s (k - s_nim s) l)) else fst (s_kernel s k l).
Definition s_dw (s : setup) : vec := dw_of (s_nw s) (s_w s).

(** the solver after [__init__]: the truncated decomposition *)
Record solver := Solver { v_setup : setup; n_sv : nat; v_U : mat; v_Xi : vec; v_V : mat }.

Section Init.
(** [np.linalg.svd(matrix, full_matrices=False)] for a matrix with the given numbers of rows and columns: U, S, Vt *)
Variable svd : nat -> nat -> mat -> mat * vec * mat.
Definition above (x : R) : bool := if Rlt_dec 1e-10 x then true else false.
(** line 174: [np.arange(m)[S > 1e-10][-1]] *)
Definition last_above (m : nat) (Sg : vec) : res nat :=
  match rev (filter (fun i => above (Sg i)) (seq 0 m)) with [] => Raise IndexError | i :: _ => Ok i end.
(** lines 172-178 *)
Definition solver_init (s : setup) : res solver :=
  let '(U, Sg, Vt) := svd (s_niw s) (s_nw s) (s_K s) in
  let! n := last_above (Nat.min (s_nw s) (s_niw s)) Sg in
  Ok (Solver s n U Sg (fun l m => Vt m l)).
End Init.

Section Functions.
Variable v : solver.
Let s := v_setup v.
Let nw := s_nw s. Let niw := s_niw s. Let K := s_K s. Let E := s_E s. Let G := s_data s. Let D := s_model s. Let dw := s_dw s.
Let n := n_sv v. Let U := v_U v. Let Xi := v_Xi v. Let V := v_V v.

(** lines 192-193 *)
Definition W2 : mat := fun m l => rsum niw (fun k => rsum n (fun n' => E k * U k m * Xi m * U k n' * Xi n' * V l n' * dw l * D l)).
(** line 194 *)
Definition W3 (m i l : nat) : R := W2 m l * V l i.
(** lines 197-198 *)
Definition M2 : mat := fun m l => rsum niw (fun k => rsum n (fun n' => E k * U k m * Xi m * U k n' * Xi n' * V l n' * dw l)).
(** line 199 *)
Definition M3 (m i l : nat) : R := M2 m l * V l i.
(** line 202 *)
Definition Evi : vec := fun m => rsum niw (fun k => Xi m * U k m * E k * G k).
Definition eye (m i : nat) : R := if Nat.eqb m i then 1 else 0.
(** [np.dot(self.V_svd, u)] *)
Definition Vu (u : vec) : vec := fun l => rsum n (fun m => V l m * u m).

(** lines 247-253 *)
Definition compute_f_J_diag (u : vec) (alpha : R) : vec * mat :=
  let w := fun l => exp (Vu u l) in
  (fun m => alpha * u m + rsum nw (fun l => W2 m l * w l) - Evi m,
   fun m i => alpha * eye m i + rsum nw (fun l => W3 m i l * w l)).
(** lines 272-280; [model_plus] and [model_minus] are both the model (lines 135-136) *)
Definition compute_f_J_offdiag (u : vec) (alpha : R) : vec * mat :=
  let w := fun l => exp (Vu u l) in
  let a_plus := fun l => D l * w l in
  let a_minus := fun l => D l / w l in
  (fun m => alpha * u m + rsum nw (fun l => M2 m l * (a_plus l - a_minus l)) - Evi m,
   fun m i => alpha * eye m i + rsum nw (fun l => M3 m i l * (a_plus l + a_minus l))).
(** line 303 *)
Definition singular_to_realspace_diag (u : vec) : vec := fun l => D l * exp (Vu u l).
(** lines 321-323 *)
Definition singular_to_realspace_offdiag (u : vec) : vec := fun l => let w := exp (Vu u l) in D l * w - D l / w.
(** lines 363-364 *)
Definition chi2 (A : vec) : R := rsum niw (fun k => E k * (G k - trapz nw (fun l => K k l * A l) (s_w s)) ^ 2).
(** line 380 *)
Definition entropy_pos (A u : vec) : R := trapz nw (fun l => A l - D l - A l * Vu u l) (s_w s).
(** lines 397-400 *)
Definition entropy_posneg (A u : vec) : R :=
  let root := fun l => sqrt (A l ^ 2 + 4 * D l * D l) in
  trapz nw (fun l => root l - D l - D l - A l * ln ((root l + A l) / (2 * D l))) (s_w s).
(** lines 526-533: chosen by the flag *)
Definition compute_f_J (u : vec) (alpha : R) : vec * mat := if s_off s then compute_f_J_offdiag u alpha else compute_f_J_diag u alpha.
Definition singular_to_realspace (u : vec) : vec := if s_off s then singular_to_realspace_offdiag u else singular_to_realspace_diag u.
Definition entropy (A u : vec) : R := if s_off s then entropy_posneg A u else entropy_pos A u.
End Functions.

(** lines 555-576 *)
Record result := Result { r_u : vec; r_A : vec; r_blur : R; r_alpha : R; r_entropy : R; r_chi2 : R; r_norm : R; r_Q : R }.
Section Optimization.
(** [NewtonOptimizer(n_sv, initial_guess=ustart, max_hist=1)(compute_f_J, alpha)] and scipy's root finder *)
Variables newton scipy_lm : nat -> (vec -> R -> vec * mat) -> vec -> R -> res vec.
(** [None] without preblur, else the width and [kernel.blur] *)
Variable blur : option (R * (vec -> res vec)).
(** lines 526-600 *)
Definition maxent_optimization (v : solver) (optimizer : string) (alpha : R) (ustart : vec) : res result :=
  let! u := (if String.eqb optimizer "newton" then newton (n_sv v) (compute_f_J v) ustart alpha
             else if String.eqb optimizer "scipy_lm" then scipy_lm (n_sv v) (compute_f_J v) ustart alpha
             else Raise ValueError) in
  let A := singular_to_realspace v u in
  let entr := entropy v A u in
  let chisq := chi2 v A in
  let norm := trapz (s_nw (v_setup v)) A (s_w (v_setup v)) in
  let! Ab := (match blur with None => Ok (A, 0) | Some (bw, f) => let! A' := f A in Ok (A', bw) end) in
  Ok (Result u (fst Ab) (snd Ab) alpha entr chisq norm (alpha * entr - 1 / 2 * chisq)).
End Optimization.
