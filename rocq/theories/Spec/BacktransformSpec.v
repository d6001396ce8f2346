(** Vocabulary for spectral representations (nothing here models code). *)
From mathcomp Require Import all_ssreflect all_algebra.
From mathcomp.real_closed Require Import complex.
From Coq Require Import ZArith.
From Verif Require Import Base.PyBase Spec.OpticsRealSpec.
Import GRing.Theory Num.Theory.
Set Implicit Arguments. Unset Strict Implicit. Unset Printing Implicit Defensive.
Local Open Scope ring_scope.
Local Open Scope complex_scope.
Section Spec.
Variable R : rcfType.
Notation C := R[i].
(** 1/(i v - x) *)
Definition fermi_kernel (v x : R) : C := 1 / ('i * v%:C - x%:C).
(** x^2/(x^2 + v^2), continued to 1 at v = 0 *)
Definition bose_kernel (v x : R) : C := if v == 0 then 1 else (x ^+ 2 / (x ^+ 2 + v ^+ 2))%:C.
(** int dx K(v,x) A(x) by the trapezoidal rule on the n mesh points x_0, ..., x_{n-1} *)
Definition spectral_integral (K : R -> R -> C) (x : Z -> R) (A : Z -> R) (n : Z) (v : R) : C := trapezoid x (fun j => K v (x j) * (A j)%:C) 0 (n - 1).
(** int dx A(x) *)
Definition norm_integral (x A : Z -> R) (n : Z) : R := \sum_(j <- arange 0 (n - 1)) (x (j + 1)%Z - x j) * (A j + A (j + 1)%Z) / 2%:R.
Definition increasing (x : Z -> R) (n : Z) : Prop := forall i j, (0 <= i < j)%Z -> (j < n)%Z -> x i < x j.
(** the cell of mesh point j: between the midpoints to its neighbours, cut at the ends of the mesh *)
Definition cell (x : Z -> R) (n j : Z) : R :=
  (if (j =? n - 1)%Z then x (n - 1)%Z else (x j + x (j + 1)%Z) / 2%:R) - (if (j =? 0)%Z then x 0%Z else (x (j - 1)%Z + x j) / 2%:R).
End Spec.

Section KK.
Variable R : rcfType.
Notation C := R[i].
(** kinds of Kramers-Kronig relations: the spectrum is given on the whole mesh, or at non-negative frequencies and continued to an even (odd) function *)
Inductive kk_kind := KKgeneral | KKeven | KKodd.
(** contribution to Re G(y) of spectral weight a in a cell of width d at z: a/(y-z); for continued spectra also that of the weight a (-a) at -z *)
Definition kk_term (k : kk_kind) (d z a y : R) : R :=
  match k with
  | KKgeneral => d * a / (y - z)
  | KKeven => d * a / (y - z) + d * a / (y + z)
  | KKodd => d * a / (y - z) - d * a / (y + z)
  end.
(** sum over all cells but the one of the point itself, minus i pi A *)
Definition kk_value (k : kk_kind) (cpi : R) (x A : Z -> R) (n j : Z) : C :=
  (\sum_(i <- arange 0 n | ~~ (i =? j)%Z) kk_term k (cell x n i) (x i) (A i) (x j))%:C - 'i * (cpi * A j)%:C.
End KK.
