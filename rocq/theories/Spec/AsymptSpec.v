(** Vocabulary for the high-frequency corrections (nothing here models code). *)
From Coq Require Import Reals ZArith List.
From Coquelicot Require Import Complex.
From Verif Require Import Base.PyBase.
Import ListNotations.
Local Open Scope R_scope.
Local Open Scope C_scope.
Local Arguments Cmod (_)%C_scope.
(** convergence of complex sequences *)
Definition Ccv (u : nat -> C) (l : C) : Prop :=
  forall eps : R, (0 < eps)%R -> exists N, forall n, (N <= n)%nat -> (Cmod (u n - l)%C < eps)%R.
(** the fermionic Matsubara frequency i nu_n = i (2n+1) pi/beta *)
Definition inu (beta : R) (n : Z) : C := Ci * RtoC (PI / beta * IZR (2 * n + 1)).
(** the Green function of one momentum with energy e and self-energy sig *)
Definition green (beta mu e : R) (sig : Z -> C) (n : Z) : C := / (inu beta n + RtoC (mu - e) - sig n).
(** at high frequencies the self-energy is s0 - s1/(i nu) up to terms of second order *)
Definition sig_tail (beta s0 s1 : R) (sig : Z -> C) : Prop :=
  exists (c : R) (n1 : Z), forall n, (n1 <= Z.abs n)%Z -> (Cmod (sig n - (RtoC s0 - RtoC s1 / inu beta n))%C <= c * Cmod (/ inu beta n)%C ^ 2)%R.
(** the product of two Green functions expanded to fourth order in 1/(i nu); x = mu - e - s0 for the
    first, y for the second *)
Definition prod4 (beta x y s1 : R) (n m : Z) : C :=
  let a := / inu beta n in let b := / inu beta m in
  a * b - RtoC x * (a * a * b) - RtoC y * (a * b * b)
  + RtoC (x * x - s1) * (a * a * a * b) + RtoC (y * y - s1) * (a * b * b * b) + RtoC (x * y) * (a * a * b * b).
(** sums over integer ranges a <= n < b *)
Definition zsumC (a b : Z) (f : Z -> C) : C := fold_right Cplus (RtoC 0) (map f (arange a b)).
(** k + q on the mesh *)
Definition kq (nx ny nz : Z) (k q : Z * Z * Z) : Z * Z * Z :=
  match k, q with (x, y, z), (qx, qy, qz) => ((x + qx) mod nx, (y + qy) mod ny, (z + qz) mod nz)%Z end.
(** averages over the mesh *)
Definition mesh (nx ny nz : Z) : list (Z * Z * Z) := list_prod (list_prod (arange 0 nx) (arange 0 ny)) (arange 0 nz).
Definition avgR (nx ny nz : Z) (f : Z * Z * Z -> R) : R := (fold_right Rplus 0%R (map f (mesh nx ny nz)) / IZR (nx * ny * nz))%R.
Definition avgC (nx ny nz : Z) (f : Z * Z * Z -> C) : C := fold_right Cplus (RtoC 0) (map f (mesh nx ny nz)) / RtoC (IZR (nx * ny * nz)).
