(** Vocabulary for the averaged Pade continuation: what numpy's argsort and lstsq guarantee, rational functions with real
    coefficients, and changes of one coefficient. *)
From mathcomp Require Import all_ssreflect all_algebra.
From mathcomp Require Import complex.
From Verif Require Import Base.PyBase Model.Pade.
Import GRing.Theory Num.Theory.
Set Implicit Arguments. Unset Strict Implicit. Unset Printing Implicit Defensive.
Local Open Scope nat_scope.
Local Open Scope ring_scope.

Section Spec.
Variable R : rcfType.
Notation C := (complex R).
Notation Im := (@complex.Im R).
(** argsort lists the positions of d, each once, by increasing value. *)
Definition argsort_ok (argsort : list R -> list nat) : Prop :=
  forall d, perm_eq (argsort d) (iota 0 (size d)) /\ sorted (fun i j => seq.nth 0 d i <= seq.nth 0 d j) (argsort d).
(** lstsq returns an exact solution of the linear system whenever there is one. *)
Definition lstsq_ok (lstsq : list (list C) -> list C -> list C) : Prop :=
  forall (rows : list (list C)) (y : list C) n, (0 < size rows)%nat -> size y = size rows -> (forall r, r \in rows -> size r = n) ->
    (exists x, size x = n /\ forall k, (k < size rows)%nat -> dot (seq.nth [::] rows k) x = seq.nth 0 y k) ->
    size (lstsq rows y) = n /\ forall k, (k < size rows)%nat -> dot (seq.nth [::] rows k) (lstsq rows y) = seq.nth 0 y k.
Definition pm_rows N (z f : list C) : list (list C) := [seq pm_row N./2 p.1 p.2 | p <- zip z f].
Definition pm_rhss N (z f : list C) : list C := [seq pm_rhs N./2 p.1 p.2 | p <- zip z f].
Definition ratf (p q : {poly C}) (z : C) : C := p.[z] / q.[z].
(** All points lie in the upper half plane. *)
Definition upper (z : list C) : bool := all (fun w => 0 < Im w) z.
(** Polynomials with real coefficients as functions of a complex variable. *)
Definition toC (p : {poly R}) : {poly C} := map_poly (real_complex R) p.
(** Coefficient k of x is increased by t. *)
Definition bump (x : list C) k (t : C) : list C := seq.set_nth 0 x k (seq.nth 0 x k + t).
(** The sum over the output points of |Im a - Im b|. *)
Definition im_distance (n : nat) (a b : list C) : R := \sum_(k < n) `|Im (seq.nth 0 a k) - Im (seq.nth 0 b k)|.
End Spec.
