(** Vocabulary for the choice of the weight of the entropy (C107). *)
From Coq Require Import Reals List.
From Verif Require Import Base.PyBase Base.RSum Model.AnaSolver.
Import ListNotations.
Local Open Scope R_scope.

(** the [k]-th weight tried *)
Definition weight_k (start div : R) (k : nat) : R := start / div ^ k.
(** [K] is the last number for which a weight is tried: the next one is the first below the end *)
Definition last_tried (start stop div : R) (K : nat) : Prop :=
  (forall k, (k < K)%nat -> stop <= weight_k start div (S k)) /\ weight_k start div (S K) < stop.
Definition weights (start div : R) (K : nat) : list R := map (weight_k start div) (seq 0 (S K)).
(** the successful optimizations at the given weights, each started from the previous success *)
Fixpoint successes (opt : R -> (nat -> R) -> res result) (alphas : list R) (ustart : nat -> R) : list (R * result) :=
  match alphas with
  | [] => []
  | a :: l => match opt a ustart with Ok o => (a, o) :: successes opt l (r_u o) | Raise _ => successes opt l ustart end
  end.
(** [i] is the first position of a smallest value *)
Definition first_smallest (l : list R) (i : nat) : Prop :=
  (i < length l)%nat /\ (forall j, (j < length l)%nat -> nth i l 0 <= nth j l 0) /\ (forall j, (j < i)%nat -> nth i l 0 < nth j l 0).
