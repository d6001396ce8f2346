(** Vocabulary for statements about paths: fractional coordinates in the unit cell, mesh points of a grid. *)
From Coq Require Import Reals.
From Verif Require Import Base.PyBase.
Local Open Scope Z_scope.
(** all three fractional coordinates in [0,1] *)
Definition unit_pt (k : R * R * R) : Prop := let '(a, b, c) := k in (0 <= a <= 1 /\ 0 <= b <= 1 /\ 0 <= c <= 1)%R.
Definition on_grid (nk : Z * Z * Z) (k : Z * Z * Z) : Prop := let '(n1, n2, n3) := nk in let '(x, y, z) := k in 0 <= x < n1 /\ 0 <= y < n2 /\ 0 <= z < n3.
Definition pos_grid (nk : Z * Z * Z) : Prop := let '(n1, n2, n3) := nk in 0 < n1 /\ 0 < n2 /\ 0 < n3.
(** the corner with integer mesh coordinates c has fractional coordinates c/n (c = n is the zone boundary 2 pi) *)
Definition corner_at (nk c : Z * Z * Z) (k : R * R * R) : Prop :=
  let '(n1, n2, n3) := nk in let '(c1, c2, c3) := c in let '(a, b, d) := k in
  (a * IZR n1 = IZR c1 /\ b * IZR n2 = IZR c2 /\ d * IZR n3 = IZR c3)%R /\ 0 <= c1 <= n1 /\ 0 <= c2 <= n2 /\ 0 <= c3 <= n3.
Definition wrap_pt (nk c : Z * Z * Z) : Z * Z * Z :=
  let '(n1, n2, n3) := nk in let '(c1, c2, c3) := c in (c1 mod n1, c2 mod n2, c3 mod n3).
