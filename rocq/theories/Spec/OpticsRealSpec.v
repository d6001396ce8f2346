(** Vocabulary for the real-frequency optical conductivity (nothing here models code). *)
From mathcomp Require Import all_ssreflect all_algebra.
From mathcomp.real_closed Require Import complex.
From Coq Require Import ZArith Sorted.
From Verif Require Import Base.PyBase.
Import GRing.Theory Num.Theory.
Set Implicit Arguments. Unset Strict Implicit. Unset Printing Implicit Defensive.
Local Open Scope ring_scope.
Local Open Scope complex_scope.
Section Spec.
Variable R : rcfType.
Notation C := R[i].
Variables nx ny nz : nat.
Notation K := ('I_nx * 'I_ny * 'I_nz)%type.
(** integers as reals *)
Definition zr (n : Z) : R := if (0 <=? n)%Z then (Z.to_nat n)%:R else - (Z.to_nat (- n))%:R.
(** the trapezoidal rule for f on the nodes x_a, ..., x_b *)
Definition trapezoid (x : Z -> R) (f : Z -> C) (a b : Z) : C := \sum_(j <- arange a b) (x (j + 1)%Z - x j)%:C * (f j + f (j + 1)%Z) / 2%:R.
(** the Fermi function *)
Definition fermi (rexp : R -> R) (beta x : R) : R := 1 / (rexp (beta * x) + 1).
(** the spectral function *)
Definition spectral (cpi : R) (g : C) : R := - complex.Im g / cpi.
(** -2/N_k sum_k a(k) b(k) int dv nf(v) A(k,v) [G(k,v+w) + conj G(k,v-w)], the integral by the trapezoidal rule on v = -W d, ..., W d *)
Definition chijj_real (nf : R -> R) (cpi d : R) (a b : K -> C) (G : K -> R -> C) (W : Z) (w : R) : C :=
  - 2%:R * ((\sum_(k : K) a k * b k * trapezoid (fun j => zr j * d) (fun j => (nf (zr j * d) * spectral cpi (G k (zr j * d)))%:C *
       (G k (zr j * d + w) + conjc (G k (zr j * d - w)))) (- W) W) / #|{: K}|%:R).
End Spec.

(** the same on an arbitrary grid x_lo, ..., x_hi *)
Section Grid.
Variable R : rcfType.
Notation C := R[i].
Variables nx ny nz : nat.
Notation K := ('I_nx * 'I_ny * 'I_nz)%type.
Definition chijj_real_grid (nf : R -> R) (cpi : R) (x : Z -> R) (a b : K -> C) (G : K -> R -> C) (lo hi : Z) (w : R) : C :=
  - 2%:R * ((\sum_(k : K) a k * b k * trapezoid x (fun j => (nf (x j) * spectral cpi (G k (x j)))%:C * (G k (x j + w) + conjc (G k (x j - w)))) lo hi) / #|{: K}|%:R).
(** what is relied on of an interpolation routine: it passes through its data when there are at least four points at increasing positions *)
Definition interpolates (interp : list R -> list R -> R -> R) : Prop :=
  forall xs ys, Sorted.StronglySorted (fun a b => a < b) xs -> length ys = length xs -> (4 <= length xs)%coq_nat ->
  forall x y, List.In (x, y) (List.combine xs ys) -> interp xs ys x = y.
End Grid.
