(** Vocabulary for C119. *)
From Coq Require Import ZArith Reals List.
From Verif Require Import Base.PyBase Base.Arr.
Local Open Scope R_scope.
(** the array holds F w v v' at the bosonic frequencies -n .. n and the fermionic frequencies -m .. m-1 *)
Definition vertex_of {A} (mat : list (list (list A))) (n m : Z) (F : Z -> Z -> Z -> A) : Prop :=
  shape3 mat (2 * n + 1) (2 * m) (2 * m) /\
  forall w v v', (- n <= w <= n)%Z -> (- m <= v < m)%Z -> (- m <= v' < m)%Z -> get3 mat (n + w) (m + v) (m + v') = Some (F w v v').
(** the map shows G v v' at the height v and the place v', for all frequencies -c .. c-1 *)
Definition shows (p : list (R * R * R)) (c : Z) (G : Z -> Z -> R) : Prop :=
  forall x y z, In (x, y, z) p <-> exists v v', (- c <= v < c)%Z /\ (- c <= v' < c)%Z /\ x = IZR v' /\ y = IZR v /\ z = G v v'.
