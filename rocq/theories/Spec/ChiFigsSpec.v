(** Vocabulary for C118. *)
From Coq Require Import ZArith Reals List.
From Verif Require Import Base.PyBase Base.Arr Spec.SanityFigsSpec.
Local Open Scope R_scope.
(** the list holds f w at the bosonic frequencies w = -n .. n *)
Definition wgrid {A} (l : list A) (n : Z) (f : Z -> A) : Prop := zlen l = (2 * n + 1)%Z /\ forall w, (- n <= w <= n)%Z -> zget l (n + w) = Some (f w).
(** the curve of the real parts against the index of the frequency *)
Definition real_curve (c : list (R * R)) (n : Z) (f : Z -> R * R) : Prop := curve_of c (2 * n + 1) (fun i => IZR (i - n)) (fun i => fst (f (i - n)%Z)).
(** on logarithmic axes: the positive frequencies where [g] is positive *)
Definition log_curve (c : list (R * R)) (n : Z) (g : Z -> R) : Prop := forall x y, In (x, y) c <-> exists w, (0 < w <= n)%Z /\ x = IZR w /\ y = g w /\ 0 < y.
Definition small : R := 0.000001.
(** the real part of 2 e_kin / (i w + small)^2 at the bosonic frequency w = 2 pi m / beta *)
Definition asy (beta e_kin : R) (m : Z) : R :=
  let w := 2 * PI / beta * IZR m in 2 * e_kin * (small * small - w * w) / ((small * small + w * w) * (small * small + w * w)).
