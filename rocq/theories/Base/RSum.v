(** Finite sums of real numbers: [np.sum], [np.dot] and [np.einsum] on arrays given as functions of the index. *)
From Coq Require Import Reals.
Local Open Scope R_scope.
Fixpoint rsum (n : nat) (f : nat -> R) : R := match n with O => 0 | S m => rsum m f + f m end.
