(** Vocabulary for the lattice Schwinger-Dyson equation and the lattice ladder (nothing here models code). *)
From mathcomp Require Import all_ssreflect all_algebra.
From Coq Require Import ZArith.
From Verif Require Import Base.PyBase Spec.BubbleSpec.
Set Implicit Arguments. Unset Strict Implicit. Unset Printing Implicit Defensive.
Import GRing.Theory.
Local Open Scope ring_scope.
(** the array [q,w] with these entries *)
Definition arr2 T (nq nw : nat) (f : nat -> nat -> T) : list (list T) := mkseq (fun i => mkseq (f i) nw) nq.
(** the array [q,w,v] with these entries at fermionic frequencies -niv..niv-1 *)
Definition arr3 T (nq nw : nat) (niv : Z) (f : nat -> nat -> Z -> T) : list (list (list T)) := arr2 nq nw (fun i j => frow niv (f i j)).
(** i-th momentum / bosonic frequency of a list *)
Definition qat (qs : list (Z * Z * Z)) (i : nat) : Z * Z * Z := seq.nth (0%Z, 0%Z, 0%Z) qs i.
Definition wat (wn : list Z) (j : nat) : Z := seq.nth 0%Z wn j.
Section S.
Variable F : fieldType.
Variables nx ny nz : nat.
Notation K := ('I_nx * 'I_ny * 'I_nz)%type.
(** 1/(nq beta) sum_{q,w} Ker(q,w,v) G(k+q, v-w) *)
Definition lattice_sde (nq beta : F) (qs : list (Z * Z * Z)) (wn : list Z) (Ker : nat -> nat -> Z -> F) (G : K -> Z -> F) (k : K) (v : Z) : F :=
  (nq * beta)^-1 * \sum_(i < size qs) \sum_(j < size wn) Ker i j v * G (kplusq k (qat qs i)) (v - wat wn j)%Z.
(** kernel of the ladder: density part plus three times the magnetic part minus the double counting
    U/2 (1-(1-U chi_d) g_d) - 3 U/2 (1-(1+U chi_m) g_m) - K_dc *)
Definition dga_kernel u (chid chim : nat -> nat -> F) (vrgd vrgm kdc : nat -> nat -> Z -> F) (i j : nat) (v : Z) : F :=
  u / 2%:R * (1 - (1 - u * chid i j) * vrgd i j v) - 3%:R * (u / 2%:R) * (1 - (1 + u * chim i j) * vrgm i j v) - kdc i j v.
(** the frequency windows of all shifted Green functions lie inside the N positive frequencies available *)
Definition fits_box (niv N : Z) (wn : list Z) : Prop := (0 <= niv)%Z /\ forall w, List.In w wn -> (niv + Z.abs w <= N)%Z.
End S.
