(** Vocabulary for data shown over momenta. *)
From Coq Require Import ZArith Reals List.
From Verif Require Import Base.PyBase Base.Arr.
Local Open Scope Z_scope.

(** Momentum number [i] of [n]. *)
Definition mom (n i : Z) : R := (2 * PI * IZR i / IZR n)%R.
(** A function of two momenta with the period of the zone, and the array of its values. *)
Definition periodic2 {A} (f : R -> R -> A) : Prop := forall x y, f (x + 2 * PI)%R y = f x y /\ f x (y + 2 * PI)%R = f x y.
Definition samples2 {A} (f : R -> R -> A) (n1 n2 : Z) (mat : list (list A)) : Prop :=
  shape2 mat n1 n2 /\ forall i j, 0 <= i < n1 -> 0 <= j < n2 -> get2 mat i j = Some (f (mom n1 i) (mom n2 j)).
(** The same for three momenta. *)
Definition samples3 {A} (f : R -> R -> R -> A) (n1 n2 n3 : Z) (mat : list (list (list A))) : Prop :=
  shape3 mat n1 n2 n3 /\ forall i j l, 0 <= i < n1 -> 0 <= j < n2 -> 0 <= l < n3 -> get3 mat i j l = Some (f (mom n1 i) (mom n2 j) (mom n3 l)).
(** [k] is the mesh momentum that is nearest to [q]. *)
Definition nearest_mom (n : Z) (q k : R) : Prop := (exists i, 0 <= i < n /\ k = mom n i) /\ forall j, 0 <= j < n -> (Rabs (k - q) <= Rabs (mom n j - q))%R.

(** Linear interpolation of [v] along an edge of the lattice of integer points vanishes at (x, y). *)
Definition zero_on_edge (v : Z -> Z -> option R) (x y : R) : Prop :=
  exists i j t a b, (0 <= t <= 1)%R /\ v i j = Some a /\ ((1 - t) * a + t * b = 0)%R /\
    ((v (i + 1) j = Some b /\ x = (IZR i + t)%R /\ y = IZR j) \/ (v i (j + 1) = Some b /\ x = IZR i /\ y = (IZR j + t)%R)).
(** What a zero line is: its vertices are such points, and every edge whose ends have opposite signs carries one. *)
Definition is_zero_line (v : Z -> Z -> option R) (l : list (R * R)) : Prop :=
  (forall x y, In (x, y) l -> zero_on_edge v x y) /\
  forall i j a b, v i j = Some a -> (a * b < 0)%R ->
    (v (i + 1) j = Some b -> exists t, (0 < t < 1)%R /\ In (IZR i + t, IZR j)%R l) /\ (v i (j + 1) = Some b -> exists t, (0 < t < 1)%R /\ In (IZR i, IZR j + t)%R l).
Definition draws_zero_lines (contour : list (list R) -> list (list (R * R))) : Prop :=
  forall z n m, shape2 z n m -> 2 <= n -> 2 <= m -> is_zero_line (fun x y => get2 z y x) (concat (contour z)).
(** The point (i, j) has the value zero, or the sign changes (or the value is zero) at the next point in one direction. *)
Definition sign_change_up (v : Z -> Z -> option R) (i j : Z) : Prop :=
  exists a, v i j = Some a /\ (a = 0%R \/ exists b, (v (i + 1) j = Some b \/ v i (j + 1) = Some b) /\ (a * b <= 0)%R).
(** The same with all four neighbours. *)
Definition sign_change (v : Z -> Z -> option R) (i j : Z) : Prop :=
  exists a, v i j = Some a /\ (a = 0%R \/ exists b, (v (i + 1) j = Some b \/ v i (j + 1) = Some b \/ v (i - 1) j = Some b \/ v i (j - 1) = Some b) /\ (a * b <= 0)%R).
