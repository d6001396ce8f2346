(** Vocabulary for the Eliashberg properties (C36, C37, C45, C62, C63): momenta
    and fermionic frequencies by index, parities, inner product, and the
    linearised gap equation as a momentum convolution. *)
From mathcomp Require Import all_ssreflect all_algebra.
From mathcomp.real_closed Require Import complex.
From Coq Require Import String.
Import GRing.Theory Num.Theory.
Set Implicit Arguments. Unset Strict Implicit. Unset Printing Implicit Defensive.
Local Open Scope nat_scope.
Local Open Scope ring_scope.
Local Open Scope complex_scope.

(** index of -k and of k'-k on a periodic grid of n points *)
Definition minus_k (n i : nat) : nat := ((n - i) %% n)%nat.
Definition k_diff (n k' k : nat) : nat := ((k' + (n - k)) %% n)%nat.
(** index of -v on a symmetric window of n fermionic frequencies *)
Definition minus_v (n v : nat) : nat := (n - 1 - v)%nat.

Section Spec.
Variable R : rcfType.
Notation C := R[i].
Variables nx ny nz nv : nat.
Definition gap_fun := nat -> nat -> nat -> nat -> C.
Definition vertex_fun := nat -> nat -> nat -> nat -> nat -> C.

Definition same (a b : gap_fun) : Prop := forall x y z v,
  (x < nx)%nat -> (y < ny)%nat -> (z < nz)%nat -> (v < nv)%nat -> a x y z v = b x y z v.
Definition zero : gap_fun := fun _ _ _ _ => 0.
Definition times (c : C) (a : gap_fun) : gap_fun := fun x y z v => c * a x y z v.
Definition minus (a b : gap_fun) : gap_fun := fun x y z v => a x y z v - b x y z v.
Definition dot (a b : gap_fun) : C :=
  \sum_(x < nx) \sum_(y < ny) \sum_(z < nz) \sum_(v < nv) (a x y z v)^* * b x y z v.

(** gap(-k,v) = s gap(k,v), gap(k,-v) = s gap(k,v) *)
Definition parity_k (s : C) (gap : gap_fun) : Prop := forall x y z v,
  (x < nx)%nat -> (y < ny)%nat -> (z < nz)%nat -> (v < nv)%nat ->
  gap (minus_k nx x) (minus_k ny y) (minus_k nz z) v = s * gap x y z v.
Definition parity_v (s : C) (gap : gap_fun) : Prop := forall x y z v,
  (x < nx)%nat -> (y < ny)%nat -> (z < nz)%nat -> (v < nv)%nat ->
  gap x y z (minus_v nv v) = s * gap x y z v.
(** |G|^2 even in k / in v *)
Definition G2_even_k (gk : gap_fun) : Prop := forall x y z v,
  (x < nx)%nat -> (y < ny)%nat -> (z < nz)%nat -> (v < nv)%nat ->
  gk (minus_k nx x) (minus_k ny y) (minus_k nz z) v * (gk (minus_k nx x) (minus_k ny y) (minus_k nz z) v)^*
  = gk x y z v * (gk x y z v)^*.
Definition G2_even_v (gk : gap_fun) : Prop := forall x y z v,
  (x < nx)%nat -> (y < ny)%nat -> (z < nz)%nat -> (v < nv)%nat ->
  gk x y z (minus_v nv v) * (gk x y z (minus_v nv v))^* = gk x y z v * (gk x y z v)^*.
(** gamma(-q;v,v') = gamma(q;v,v'), gamma(q;-v,-v') = gamma(q;v,v') *)
Definition vertex_even_k (gamma : vertex_fun) : Prop := forall x y z v v',
  (x < nx)%nat -> (y < ny)%nat -> (z < nz)%nat -> (v < nv)%nat -> (v' < nv)%nat ->
  gamma (minus_k nx x) (minus_k ny y) (minus_k nz z) v v' = gamma x y z v v'.
Definition vertex_even_v (gamma : vertex_fun) : Prop := forall x y z v v',
  (x < nx)%nat -> (y < ny)%nat -> (z < nz)%nat -> (v < nv)%nat -> (v' < nv)%nat ->
  gamma x y z (minus_v nv v) (minus_v nv v') = gamma x y z v v'.

(** The linearised gap equation:
      (1/norm) sum_{k',v'} gamma(k'-k; v, v') |G(k',v')|^2 gap(k',v'). *)
Definition gap_equation (gamma : vertex_fun) (gk : gap_fun) (norm : C) (gap : gap_fun) : gap_fun :=
  fun x y z v => norm^-1 * \sum_(i < nx) \sum_(j < ny) \sum_(l < nz) \sum_(v' < nv)
     gamma (k_diff nx i x) (k_diff ny j y) (k_diff nz l z) v v' * (gap i j l v' * (gk i j l v' * (gk i j l v')^*)).
End Spec.
Arguments zero {R}.

(** Parities expected of a gap function: 'd-wave' is even, p waves are odd in k;
    Pauli principle: a singlet gap is even, a triplet gap odd under (k,v) -> (-k,-v). *)
Definition sign (R : rcfType) (even : bool) : R[i] := if even then 1 else -1.
Definition k_even (k_sym : string) : bool := String.eqb k_sym "d-wave".
Definition singlet (channel : string) : bool := String.eqb channel "sing".
Definition k_symmetry (k_sym : string) : Prop := k_sym = "d-wave"%string \/ k_sym = "p-wave-x"%string \/ k_sym = "p-wave-y"%string.
Definition p_wave (k_sym : string) : Prop := k_sym = "p-wave-x"%string \/ k_sym = "p-wave-y"%string.
Definition pairing_channel (ch : string) : Prop := ch = "sing"%string \/ ch = "trip"%string.

(** The power iteration: orthogonalise against the gaps already found, apply the
    (shifted) kernel, take the Rayleigh quotient, rescale. *)
Section Power.
Variable R : rcfType.
Notation C := R[i].
Variables nx ny nz nv : nat.
Variable K : gap_fun R -> gap_fun R.
Notation dot := (dot nx ny nz nv).
Definition remove (v u : gap_fun R) : gap_fun R := times (dot u v / dot u u) u.
Definition orthogonalised (v : gap_fun R) (found : list (gap_fun R)) : gap_fun R :=
  foldl (fun acc u => minus acc (remove v u)) v found.
Definition shifted_kernel (s : option C) (d : gap_fun R) : gap_fun R :=
  match s with Some s => minus (K d) (times s d) | None => K d end.
Definition power_step (found : list (gap_fun R)) (s : option C) (p : C * gap_fun R) : C * gap_fun R :=
  let d := orthogonalised p.2 found in
  let w := shifted_kernel s d in
  let l := dot d w / dot d d in
  (l, times (l^-1) w).
(** the n-th pair (eigenvalue estimate, gap), starting from estimate 1 and the start gap *)
Definition power_seq found s (gap0 : gap_fun R) (n : nat) : C * gap_fun R := iter n (power_step found s) (1, gap0).
Definition modulus (z : C) : R := Num.sqrt (complex.Re z ^+ 2 + complex.Im z ^+ 2).
(** the search ends at n >= 1 when two estimates differ by less than eps or n exceeds max_count *)
Definition power_stops found s gap0 (eps : R) (max_count : BinNums.Z) (n : nat) : bool :=
  (0 < n)%nat && ((modulus ((power_seq found s gap0 n).1 - (power_seq found s gap0 n.-1).1) < eps)
                  || BinInt.Z.ltb max_count (BinInt.Z.of_nat n)).
End Power.
