(** Vocabulary for the MaxEnt controller (nothing here models code). *)
From Coq Require Import ZArith Reals List String.
From Verif Require Import Base.PyBase.
Import ListNotations.
Local Open Scope R_scope.
(** the source gives the name this value / does not mention the name *)
Definition gives {V} (d : list (string * V)) (k : string) (v : V) : Prop := exists pre post, d = (pre ++ (k, v) :: post)%list /\ forall x, ~ In (k, x) pre.
Definition silent {V} (d : list (string * V)) (k : string) : Prop := forall x, ~ In (k, x) d.
(** of the sources, listed from the strongest to the weakest, the strongest that mentions the name gives it this value *)
Definition takes {V} (sources : list (list (string * V))) (k : string) (v : V) : Prop :=
  exists before d after, sources = (before ++ d :: after)%list /\ Forall (fun s => silent s k) before /\ gives d k v.
(** a constant function on the mesh whose integral from the first to the last frequency is [total] *)
Definition flat_with_integral (m w : list R) (total : R) : Prop :=
  zlen m = zlen w /\ exists a, (forall x, In x m -> x = a) /\ forall w0 w1, zget w 0 = Some w0 -> zget w (zlen w - 1) = Some w1 -> a * (w1 - w0) = total.
(** positive fermionic / non-negative bosonic Matsubara frequencies *)
Definition fermionic_frequency (beta : R) (n : Z) : R := (2 * IZR n + 1) * PI / beta.
Definition bosonic_frequency (beta : R) (n : Z) : R := 2 * IZR n * PI / beta.
