(** Vocabulary for the maximum-entropy solver (C105). *)
From Coq Require Import Reals.
From Verif Require Import Base.RSum Model.AnaSolver.
Local Open Scope R_scope.

Definition increasing (n : nat) (x : nat -> R) : Prop := forall i, (S i < n)%nat -> x i < x (S i).
(** trapezoid rule: the sum over the panels of width times mean height *)
Definition integral (n : nat) (x y : nat -> R) : R := rsum (n - 1) (fun i => (x (S i) - x i) * ((y i + y (S i)) / 2)).
(** data, error weights and mesh of the problem *)
Definition fit_at (s : setup) (K : nat -> nat -> R) (B : nat -> R) (k : nat) : R := integral (s_nw s) (s_w s) (fun l => K k l * B l).
(** weighted squared deviation of the fit from the data *)
Definition misfit (s : setup) (K : nat -> nat -> R) (B : nat -> R) : R := rsum (s_niw s) (fun k => s_E s k * (s_data s k - fit_at s K B k) ^ 2).
(** entropy of a spectrum relative to the default model (non-negative spectra), with 0 ln 0 = 0 *)
Definition shannon (s : setup) (B : nat -> R) : R := integral (s_nw s) (s_w s) (fun l => B l - s_model s l - B l * ln (B l / s_model s l)).
(** positive-negative entropy (spectra of any sign) *)
Definition posneg (s : setup) (B : nat -> R) : R :=
  integral (s_nw s) (s_w s) (fun l => sqrt (B l ^ 2 + 4 * s_model s l ^ 2) - 2 * s_model s l - B l * arcsinh (B l / (2 * s_model s l))).
(** the functional that is maximised, with the kernel [K] and the entropy [S] *)
Definition objective (s : setup) (S : (nat -> R) -> R) (K : nat -> nat -> R) (alpha : R) (B : nat -> R) : R := alpha * S B - / 2 * misfit s K B.
(** the kernel rebuilt from the kept singular values *)
Definition kept_kernel (v : solver) (k l : nat) : R := rsum (n_sv v) (fun m => v_U v k m * v_Xi v m * v_V v l m).
(** [u] is a root of the function handed to the optimizer *)
Definition root_of (n : nat) (fJ : (nat -> R) -> R -> (nat -> R) * (nat -> nat -> R)) (alpha : R) (u : nat -> R) : Prop := forall m, (m < n)%nat -> fst (fJ u alpha) m = 0.
(** sensible input: at least one mesh point, increasing mesh, positive model, non-negative weights *)
Definition sensible (s : setup) : Prop :=
  (2 <= s_nw s)%nat /\ increasing (s_nw s) (s_w s) /\ (forall l, (l < s_nw s)%nat -> 0 < s_model s l) /\ (forall k, (k < s_niw s)%nat -> 0 <= s_E s k).
Definition nonneg (n : nat) (B : nat -> R) : Prop := forall l, (l < n)%nat -> 0 <= B l.
Definition same (n : nat) (A B : nat -> R) : Prop := forall l, (l < n)%nat -> A l = B l.
(** [u] with component [i] replaced by [x] *)
Definition set_at (u : nat -> R) (i : nat) (x : R) : nat -> R := fun j => if Nat.eqb j i then x else u j.
(** what is assumed of the singular value decomposition of a [r] x [c] matrix: it reproduces the matrix, the columns of U and the rows of Vt
    are orthonormal, the values are non-negative and descending *)
Definition is_svd (r c : nat) (K U : nat -> nat -> R) (S : nat -> R) (Vt : nat -> nat -> R) : Prop :=
  let m := Nat.min c r in
  (forall k l, (k < r)%nat -> (l < c)%nat -> K k l = rsum m (fun j => U k j * S j * Vt j l)) /\
  (forall i j, (i < m)%nat -> (j < m)%nat -> rsum r (fun k => U k i * U k j) = if Nat.eqb i j then 1 else 0) /\
  (forall i j, (i < m)%nat -> (j < m)%nat -> rsum c (fun l => Vt i l * Vt j l) = if Nat.eqb i j then 1 else 0) /\
  (forall i, (i < m)%nat -> 0 <= S i) /\ (forall i j, (i <= j)%nat -> (j < m)%nat -> S j <= S i).
(** the data of a problem shifted by [c] times the column [j] of [U] *)
Definition shift_data (s : setup) (c : R) (U : nat -> nat -> R) (j : nat) : setup :=
  Setup (s_nim s) (s_nw s) (s_w s) (s_kernel s) (s_fermi s) (s_model s)
    (fun k => (fst (s_data_c s k) + c * U k j, if s_fermi s then snd (s_data_c s k) + c * U (s_nim s + k)%nat j else snd (s_data_c s k))) (s_var s) (s_off s).
(** the entropy that belongs to the kind of problem *)
Definition entropy_of (s : setup) (B : nat -> R) : R := if s_off s then posneg s B else shannon s B.
(** the spectra among which the optimum is sought *)
Definition admissible (s : setup) (B : nat -> R) : Prop := s_off s = false -> nonneg (s_nw s) B.
(** the spectrum of zero entropy: the model, or zero for spectra of any sign *)
Definition featureless (s : setup) (l : nat) : R := if s_off s then 0 else s_model s l.
