(** Vocabulary for the lambda correction, on real susceptibilities
    chi(q, w) given as a list over q of lists over w. *)
From mathcomp Require Import all_ssreflect all_algebra.
Import GRing.Theory Num.Theory.
Set Implicit Arguments. Unset Strict Implicit. Unset Printing Implicit Defensive.
Local Open Scope ring_scope.
Section LambdaSpec.
Variable R : realFieldType.

(** (1/beta) (1/N_q) sum_q sum_w chi(q,w) *)
Definition total (beta : R) (chi : seq (seq R)) : R :=
  (\sum_(r <- chi) \sum_(x <- r) x) / (beta * (size chi)%:R).
(** (1/beta) sum_w chi_loc(w) *)
Definition local_total (beta : R) (chi : seq R) : R := (\sum_(x <- chi) x) / beta.

(** Adding [lam] to the inverse of every entry. *)
Definition shift_inverse (lam : R) (chi : seq (seq R)) : seq (seq R) :=
  [seq [seq (x^-1 + lam)^-1 | x <- r] | r <- chi].

(** A physical ladder susceptibility on at least one q point and [nw] bosonic
    frequencies: positive everywhere, and for each q largest at w = 0 (index nw/2). *)
Definition physical (nw : nat) (chi : seq (seq R)) : Prop :=
  [/\ chi != [::], (0 < nw)%N, forall r, r \in chi -> size r = nw,
      forall r, r \in chi -> forall x, x \in r -> 0 < x &
      forall r, r \in chi -> forall x, x \in r -> x <= nth 0 r (nw %/ 2)].
Definition all_positive (chi : seq (seq R)) : Prop := forall r, r \in chi -> forall x, x \in r -> 0 < x.
End LambdaSpec.
