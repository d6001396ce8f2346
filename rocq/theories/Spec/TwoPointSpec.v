(** Vocabulary for the properties of self-energies and Green's functions. *)
From mathcomp Require Import all_ssreflect all_algebra.
From mathcomp.real_closed Require Import complex.
From Coq Require Import ZArith.
From Verif Require Import Base.PyBase.
Import GRing.Theory Num.Theory.
Set Implicit Arguments. Unset Strict Implicit. Unset Printing Implicit Defensive.
Local Open Scope ring_scope.
Local Open Scope complex_scope.
Section Spec.
Variable R : rcfType.
Notation C := R[i].
(** The array [l] has 2n entries and holds [f v] at fermionic frequency index v = -n..n-1. *)
Definition on_grid (l : list C) (n : Z) (f : Z -> C) : Prop :=
  zlen l = (2 * n)%Z /\ forall v, (- n <= v < n)%Z -> zget l (n + v) = Some (f v).
(** f(-nu) = conj f(nu): index v and index -v-1 are opposite frequencies *)
Definition conj_symmetric (f : Z -> C) : Prop := forall v, f (- v - 1)%Z = conjc (f v).
(** a function of the non-negative indices, completed to all indices by that symmetry *)
Definition complete (f : Z -> C) (v : Z) : C := if Z.leb 0 v then f v else conjc (f (- v - 1)%Z).
(** entry of a list *)
Definition entry (l : list C) (v : Z) : C := List.nth (Z.to_nat v) l 0.
(** the tail s0 - s1/(i nu) *)
Definition tail_fun (nuv : Z -> R) (s0 s1 : R) (v : Z) : C := s0%:C - s1%:C / Complex 0 (nuv v).
Definition inside (c v : Z) : bool := Z.leb (- c) v && Z.ltb v c.
End Spec.
