(** Vocabulary for the tight-binding properties C39, C40, C64, C65. *)
From Coq Require Import Reals List.
From Verif Require Import Model.Wannier.
Local Open Scope R_scope.

Definition conj (z : cpx) : cpx := (fst z, - snd z).
(** Hopping from R comes with the conjugate transposed hopping from -R. *)
Definition hermitian_hopping (w : wannier) : Prop := exists p : nat -> nat,
  (forall r, (r < n_r w)%nat -> (p r < n_r w)%nat /\ p (p r) = r) /\
  forall r a b, (r < n_r w)%nat ->
    (forall d, r_grid w (p r) b a d = - r_grid w r a b d) /\
    r_weights w (p r) = r_weights w r /\ hr w (p r) b a = conj (hr w r a b).
Definition integer_vectors (w : wannier) : Prop := forall r a b d, exists z : Z, r_grid w r a b d = IZR z.
(** k with component d replaced by x *)
Definition with_k (k : kvec) (d : nat) (x : R) : kvec := fun e => if Nat.eqb e d then x else k e.
(** the k point i of a mesh axis with n points *)
Definition mesh_k (n i : nat) : R := 2 * PI * INR i / INR n.
(** f is complex differentiable along a real parameter: both parts are *)
Definition cderiv (f : R -> cpx) (x : R) (l : cpx) : Prop :=
  derivable_pt_lim (fun y => fst (f y)) x (fst l) /\ derivable_pt_lim (fun y => snd (f y)) x (snd l).
(** finite sums *)
Fixpoint rsum (n : nat) (f : nat -> R) : R := match n with O => 0 | S m => rsum m f + f m end.
Definition sum3 nx ny nz (f : nat -> nat -> nat -> R) : R := rsum nx (fun i => rsum ny (fun j => rsum nz (f i j))).
(** every component of the lattice vector is a multiple of the number of mesh points along it *)
Definition divides3 nx ny nz (zx zy zz : Z) : bool :=
  ((zx mod Z.of_nat nx =? 0) && (zy mod Z.of_nat ny =? 0) && (zz mod Z.of_nat nz =? 0))%Z%bool.
