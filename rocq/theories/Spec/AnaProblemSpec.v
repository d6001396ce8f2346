(** Vocabulary for continuation problems (C109, C110). *)
From Coq Require Import Reals List.
From Verif Require Import Base.RSum Model.AnaSolver Model.AnaKernel Model.AnaProblem Spec.AnaSolverSpec.
Local Open Scope R_scope.

(** sum over the other mesh points with the weights of the trapezoid rule *)
Definition others (n : nat) (w : nat -> R) (b : nat) (f : nat -> R) : R := rsum n (fun a => if Nat.eqb a b then 0 else dw_of n w a * f a).
(** the integral of A(x) / (w_b - x) over a mesh, the point itself left out *)
Definition hilbert (n : nat) (w A : nat -> R) (b : nat) : R := others n w b (fun a => A a / (w b - w a)).
(** the same over the mesh and its mirror image, on which the spectrum is [s] times that of the mesh *)
Definition hilbert_mirror (s : R) (n : nat) (w A : nat -> R) (b : nat) : R := others n w b (fun a => A a / (w b - w a) + s * A a / (w b - - w a)).
Definition distinct (n : nat) (w : nat -> R) : Prop := forall i j, (i < n)%nat -> (j < n)%nat -> i <> j -> w i <> w j.
Definition positive (n : nat) (w : nat -> R) : Prop := forall i, (i < n)%nat -> 0 < w i.

(** physical kernels at inverse temperature [beta] *)
Definition fermi_time (beta tau om : R) : R := exp (- tau * om) / (1 + exp (- beta * om)).
Definition bose_time_phys (beta tau om : R) : R := om / 2 * (exp (- om * tau) + exp (- om * (beta - tau))) / (1 - exp (- beta * om)).
(** the same kernels in the units of the solver (inverse temperature 1) *)
Definition fermi_unit (t x : R) : R := exp (- t * x) / (1 + exp (- x)).
Definition bose_unit (t x : R) : R := 0.5 * x * (exp (- x * t) + exp (- x * (1 - t))) / (1 - exp (- x)).
(** the value at [tau] that a spectrum on a mesh gives with a kernel *)
Definition fit (k : R -> R -> R) (n : nat) (w A : nat -> R) (tau : R) : R := integral n w (fun l => k tau (w l) * A l).
