(** Vocabulary for C116. *)
From Coq Require Import ZArith Reals List.
From Verif Require Import Base.PyBase Model.Matsubara.
Local Open Scope R_scope.
(** the array holds the values of [f] at the fermionic frequencies -n .. n-1 *)
Definition vgrid {A} (l : list A) (n : Z) (f : Z -> A) : Prop := zlen l = (2 * n)%Z /\ forall v, (- n <= v < n)%Z -> zget l (n + v) = Some (f v).
Definition dist (a b : R * R) : R := sqrt ((fst a - fst b) * (fst a - fst b) + (snd a - snd b) * (snd a - snd b)).
(** [d] is the largest distance between [f] and [h] at the frequencies -n .. n-1 *)
Definition largest_dist (n : Z) (f h : Z -> R * R) (d : R) : Prop :=
  (exists v, (- n <= v < n)%Z /\ d = dist (f v) (h v)) /\ forall v, (- n <= v < n)%Z -> dist (f v) (h v) <= d.
(** GB of an array of complex numbers *)
Definition gb (entries : Z) : R := IZR (16 * entries) / 1000000000.
