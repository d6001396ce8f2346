(** Vocabulary for the root finder of the maximum-entropy solver (C106). *)
From Coq Require Import Reals.
From Verif Require Import Base.RSum Model.AnaSolver Model.AnaNewton.
Local Open Scope R_scope.

(** the proposals: half-way between a proposal and the image of it under [it] comes the next *)
Fixpoint proposals (it : (nat -> R) -> (nat -> R)) (start : nat -> R) (k : nat) : nat -> R :=
  match k with O => start | S k' => let x := proposals it start k' in fun i => x i + 1 / 2 * (it x i - x i) end.
(** every component of [x] is within [d] of [y] *)
Definition within (n : nat) (d : R) (x y : nat -> R) : Prop := forall i, (i < n)%nat -> Rabs (x i - y i) < d.
(** the step at the (k+1)-th proposal is small *)
Definition settled (n : nat) (it : (nat -> R) -> (nat -> R)) (start : nat -> R) (k : nat) : Prop :=
  let x := proposals it start (S k) in within n 1e-4 (it x) x.
(** the components that limit the step *)
Definition large (x : R) : Prop := 1e-4 < Rabs x.
(** [P] is what a pseudo-inverse is for a square matrix with trivial kernel: a right inverse *)
Definition pinv_right (n : nat) (J P : nat -> nat -> R) : Prop :=
  (forall x, (forall m, (m < n)%nat -> rsum n (fun i => J m i * x i) = 0) -> forall i, (i < n)%nat -> x i = 0) ->
  forall m j, (m < n)%nat -> (j < n)%nat -> rsum n (fun i => J m i * P i j) = if Nat.eqb m j then 1 else 0.
