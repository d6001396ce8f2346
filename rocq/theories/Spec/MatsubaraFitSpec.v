(** Vocabulary for polynomial fits (nothing here models code). *)
From mathcomp Require Import all_ssreflect all_algebra.
From Coq Require Import ZArith.
From Verif Require Import Base.PyBase.
Import GRing.Theory Num.Theory.
Set Implicit Arguments. Unset Strict Implicit. Unset Printing Implicit Defensive.
Local Open Scope ring_scope.
Section Spec.
Variable R : rcfType.
(** a polynomial of degree at most d *)
Definition degree_le (p : {poly R}) (d : Z) : Prop := (Z.of_nat (size p) <= d + 1)%Z.
(** sum of the squared deviations *)
Definition deviation (xs ys : list R) (p : {poly R}) : R := \sum_(xy <- List.combine xs ys) (p.[xy.1] - xy.2) ^+ 2.
(** least squares: of degree at most d, and no other such polynomial deviates less *)
Definition least_squares (fit : list R -> list R -> Z -> {poly R}) : Prop := forall xs ys d, (0 <= d)%Z -> zlen xs = zlen ys -> (1 <= zlen xs)%Z ->
  degree_le (fit xs ys d) d /\ forall q, degree_le q d -> deviation xs ys (fit xs ys d) <= deviation xs ys q.
(** data on a polynomial of degree at most d, given at more than d different points, are fitted by that polynomial *)
Definition fits_exactly (fit : list R -> list R -> Z -> {poly R}) : Prop := forall xs d p, (0 <= d)%Z -> List.NoDup xs -> (d + 1 <= zlen xs)%Z -> degree_le p d ->
  fit xs (List.map (fun x => p.[x]) xs) d = p.
(** confined to (0, 1]: values outside are replaced by one *)
Definition quasiparticle_weight (z : R) : R := if (0 < z) && (z <= 1) then z else 1.
End Spec.
