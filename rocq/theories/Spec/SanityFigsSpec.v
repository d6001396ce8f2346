(** Vocabulary for C117. *)
From Coq Require Import ZArith Reals List.
From Verif Require Import Base.PyBase Base.Arr Spec.ShownKSpec Spec.SwkSpec.
Local Open Scope R_scope.
(** the array holds the values of [f] at the momenta of an n1 x n2 x n3 lattice *)
Definition samples3 {A} (f : R -> R -> R -> A) (n1 n2 n3 : Z) (m : list (list (list A))) : Prop :=
  shape3 m n1 n2 n3 /\ forall i j l, (0 <= i < n1)%Z -> (0 <= j < n2)%Z -> (0 <= l < n3)%Z -> get3 m i j l = Some (f (mom n1 i) (mom n2 j) (mom n3 l)).
(** the curve has [n] points, the i-th one at [x i] with the value [y i] *)
Definition curve_of (c : list (R * R)) (n : Z) (x y : Z -> R) : Prop := zlen c = n /\ forall i, (0 <= i < n)%Z -> zget c i = Some (x i, y i).
(** the array holds f i j l v at lattice point (i, j, l) and fermionic frequency v = -n .. n-1 *)
Definition values_v {A} (f : Z -> Z -> Z -> Z -> A) (n1 n2 n3 n : Z) (m : list (list (list (list A)))) : Prop :=
  shape4 m n1 n2 n3 (2 * n) /\ forall i j l v, (0 <= i < n1)%Z -> (0 <= j < n2)%Z -> (0 <= l < n3)%Z -> (- n <= v < n)%Z -> get4 m i j l (n + v) = Some (f i j l v).
