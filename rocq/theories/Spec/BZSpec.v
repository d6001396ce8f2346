(** Specification of mesh points and point operations (independent of the code's arrays). *)
From Coq Require Import String.
From Verif Require Import Base.PyBase Base.Arr.
Local Open Scope string_scope.
Local Open Scope Z_scope.

Definition point := (Z * Z * Z)%type.
Definition on_mesh (nx ny nz : Z) (k : point) : Prop :=
  let '(x, y, z) := k in 0 <= x < nx /\ 0 <= y < ny /\ 0 <= z < nz.
(** The point operation a symmetry name stands for, on the periodic mesh 2 pi (x/nx, y/ny, z/nz). *)
Definition point_op (nx ny nz : Z) (sym : string) (k : point) : point :=
  let '(x, y, z) := k in
  if String.eqb sym "x-inv" then ((- x) mod nx, y, z)
  else if String.eqb sym "y-inv" then (x, (- y) mod ny, z)
  else if String.eqb sym "z-inv" then (x, y, (- z) mod nz)
  else if String.eqb sym "x-y-sym" then (if nx =? ny then (y, x, z) else k)
  else if String.eqb sym "x-y-inv" then ((- x) mod nx, (- y) mod ny, z)
  else k.
Definition known (sym : string) : Prop := In sym ["x-inv"; "y-inv"; "z-inv"; "x-y-sym"; "x-y-inv"].
(** Points connected by a chain of the listed operations (in either direction). *)
Inductive equiv (nx ny nz : Z) (syms : list string) : point -> point -> Prop :=
| eq_refl_pt k : equiv nx ny nz syms k k
| eq_op k sym : In sym syms -> on_mesh nx ny nz k -> equiv nx ny nz syms k (point_op nx ny nz sym k)
| eq_sym_pt k k' : equiv nx ny nz syms k k' -> equiv nx ny nz syms k' k
| eq_trans_pt k k' k'' : equiv nx ny nz syms k k' -> equiv nx ny nz syms k' k'' -> equiv nx ny nz syms k k''.
(** position of a point in the flattened (C order) mesh *)
Definition lin (ny nz : Z) (k : point) : Z := let '(x, y, z) := k in (x * ny + y) * nz + z.
(** value of a mesh array at a point *)
Definition at3 {A} (m : list (list (list A))) (k : point) : option A := let '(x, y, z) := k in get3 m x y z.
(** Symmetry lists made of axis inversions, optionally followed by the x-y exchange (then x and y are both or neither
    inverted).  All lists predefined in brillouin_zone.py except [simultaneous_x_y_inversion] are of this form. *)
Definition inversion_name (s : string) : Prop := In s ["x-inv"; "y-inv"; "z-inv"].
Definition standard_list (syms : list string) : Prop :=
  exists invs, Forall inversion_name invs /\
    (syms = invs \/ (syms = (invs ++ ["x-y-sym"])%list /\ (In "x-inv" invs <-> In "y-inv" invs))).
