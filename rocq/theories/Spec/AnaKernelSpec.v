(** Vocabulary for the kernels of the analytic continuation (C108). *)
From Coq Require Import Reals.
From Verif Require Import Base.RSum Model.AnaSolver Model.AnaKernel Spec.AnaSolverSpec.
Local Open Scope R_scope.

(** [z] is 1 / (i nu - om) *)
Definition resolvent (nu om : R) (z : cpx) : Prop := cmul (- om, nu) z = (1, 0).
(** [v] is the integral of [f] from [a] to [b] (fundamental theorem of calculus; the value is unique, see [area_unique]) *)
Definition area (f : R -> R) (a b v : R) : Prop := exists F, (forall x, derivable_pt_lim F x (f x)) /\ F b - F a = v.
(** fermionic and bosonic Matsubara frequencies at inverse temperature 1 *)
Definition odd_freq (n : Z) : R := (2 * IZR n + 1) * PI.
Definition even_freq (n : Z) : R := 2 * IZR n * PI.
(** [z] is the integral of exp(i nu tau) K(tau) for tau from 0 to 1 *)
Definition transform (K : R -> R) (nu : R) (z : cpx) : Prop :=
  area (fun t => cos (nu * t) * K t) 0 1 (fst z) /\ area (fun t => sin (nu * t) * K t) 0 1 (snd z).
(** the real kernel for susceptibilities, continued to zero frequency *)
Definition bose (nu om : R) : R := if Req_EM_T nu 0 then 1 else om ^ 2 / (om ^ 2 + nu ^ 2).
(** the axis has at most one zero *)
Definition one_zero (n : nat) (x : nat -> R) : Prop := forall i j, (i < n)%nat -> (j < n)%nat -> x i = 0 -> x j = 0 -> i = j.
(** squared modulus *)
Definition abs2 (z : cpx) : R := fst z ^ 2 + snd z ^ 2.
(** data minus fit, before any rotation *)
Definition residual (nw : nat) (re : nat -> R) (K : nat -> nat -> cpx) (data : nat -> cpx) (A : nat -> R) (k : nat) : cpx :=
  csub (data k) (integral nw re (fun l => fst (K k l) * A l), integral nw re (fun l => snd (K k l) * A l)).
(** complex data, or everything real *)
Definition proper (fermi : bool) (nim nw : nat) (K : nat -> nat -> cpx) (data : nat -> cpx) : Prop :=
  fermi = true \/ (forall k, (k < nim)%nat -> snd (data k) = 0) /\ (forall k l, (k < nim)%nat -> (l < nw)%nat -> snd (K k l) = 0).
Definition delta (i j : nat) : cpx := (if Nat.eqb i j then 1 else 0, 0).
(** what is assumed of the eigenvalues and eigenvectors of a hermitian matrix *)
Definition is_eigh (n : nat) (c : cmat) (v : nat -> R) (u : cmat) : Prop :=
  (forall i j, (i < n)%nat -> (j < n)%nat -> c i j = csum n (fun k => cmul (u i k) (cmul (v k, 0) (conj (u j k))))) /\
  (forall i j, (i < n)%nat -> (j < n)%nat -> csum n (fun k => cmul (u i k) (conj (u j k))) = delta i j) /\
  (forall k l, (k < n)%nat -> (l < n)%nat -> csum n (fun i => cmul (conj (u i k)) (u i l)) = delta k l).
Definition inverse_of (n : nat) (c p : cmat) : Prop :=
  forall i j, (i < n)%nat -> (j < n)%nat -> csum n (fun m => cmul (c i m) (p m j)) = delta i j.
(** z* P z *)
Definition form (n : nat) (p : cmat) (z : nat -> cpx) : cpx := csum n (fun i => csum n (fun j => cmul (conj (z i)) (cmul (p i j) (z j)))).
Definition real_matrix (n : nat) (u : cmat) : Prop := forall i j, (i < n)%nat -> (j < n)%nat -> snd (u i j) = 0.
