(** Vocabulary for the assembled pairing and optics vertices (nothing here models code). *)
From mathcomp Require Import all_ssreflect all_algebra.
From mathcomp.real_closed Require Import complex.
From Coq Require Import ZArith.
From Verif Require Import Base.PyBase Base.Arr Spec.BZSpec Spec.RankSpec.
Import GRing.Theory Num.Theory.
Set Implicit Arguments. Unset Strict Implicit. Unset Printing Implicit Defensive.
Local Open Scope ring_scope.
Section Spec.
Variable R : rcfType.
Notation C := R[i].
(** the array [q,w,v,v'] has the value F at the listed momenta, bosonic frequencies -niw..niw and fermionic -niv..niv-1 *)
Definition holds_values (a : list (list (list (list C)))) (qs : list point) (niw niv : Z) (F : point -> Z -> Z -> Z -> C) : Prop :=
  forall j q w v v', zget qs j = Some q -> (- niw <= w <= niw)%Z -> (- niv <= v < niv)%Z -> (- niv <= v' < niv)%Z ->
    get4 a j (niw + w) (niv + v) (niv + v') = Some (F q w v v').
(** invariant under the point operations *)
Definition point_symmetric A (nx ny nz : Z) (syms : list String.string) (F : point -> A) : Prop :=
  forall s k, List.In s syms -> on_mesh nx ny nz k -> F (point_op nx ny nz s k) = F k.
(** ladder vertex f1 + (1 - ur chi) f2 *)
Definition ladder (ur : C) (X : point -> Z -> C) (F1 F2 : point -> Z -> Z -> Z -> C) (q : point) (w v v' : Z) : C :=
  F1 q w v v' + (1 - ur * X q w) * F2 q w v v'.
(** the particle-particle vertex at zero total momentum and frequency obtained by crossing: -F(q, v-v'; v, -v'-1) *)
Definition crossed (F : Z -> Z -> Z -> C) (v v' : Z) : C := - F (v - v')%Z v (- v' - 1)%Z.
(** Hermitian part of a matrix in (v,v') *)
Definition herm (P : Z -> Z -> C) (v v' : Z) : C := (P v v' + conjc (P v' v)) / 2%:R.
End Spec.
