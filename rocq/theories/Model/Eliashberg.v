(** Model of /repo/src/dga/eliashberg_equation.py.

    Numbers: complex numbers over an arbitrary real closed field (complex128
    without rounding).  Division by zero (numpy: nan/inf) is the field's total
    division; where it matters the theorems exclude it or name it.
    Arrays: an array of shape [nkx,nky,nkz,...] is a function of its indices;
    only indices inside the shape are ever read.  *)
From mathcomp Require Import all_ssreflect all_algebra.
From mathcomp.real_closed Require Import complex.
From Coq Require Import String ZArith.
From Verif Require Import Base.PyBase Model.Config.
Import GRing.Theory Num.Theory.
Set Implicit Arguments. Unset Strict Implicit. Unset Printing Implicit Defensive.
Local Open Scope nat_scope.
Local Open Scope ring_scope.
Local Open Scope complex_scope.

Section Eliashberg.
Variable R : rcfType.
Notation C := R[i].

(** Arrays over momenta, over momenta and frequency, over momenta and two frequencies. *)
Definition karr := nat -> nat -> nat -> C.
Definition garr := nat -> nat -> nat -> nat -> C.
Definition varr := nat -> nat -> nat -> nat -> nat -> C.

(** Sums over the mesh. *)
Section Mesh.
Variables nx ny nz nv : nat.
Definition ksum (f : karr) : C := \sum_(i < nx) \sum_(j < ny) \sum_(l < nz) f i j l.
(** [np.sum(a*b)] over all four axes. *)
Definition asum (f : garr) : C := \sum_(i < nx) \sum_(j < ny) \sum_(l < nz) \sum_(v < nv) f i j l v.

(** numpy.fft.fftn / ifftn over axes (0,1,2): [ex] stands for exp(2 pi i/nkx), etc. *)
Variables ex ey ez : C.
Definition phase (i j l x y z : nat) : C := ex ^+ (i * x) * ey ^+ (j * y) * ez ^+ (l * z).
Definition fftn (f : karr) : karr := fun x y z => ksum (fun i j l => f i j l * (phase i j l x y z)^-1).
Definition ifftn (f : karr) : karr := fun x y z =>
  ((nx * ny * nz)%nat%:R)^-1 * ksum (fun i j l => f i j l * phase i j l x y z).

(** Elementwise operations on gap functions. *)
Definition vsub (a b : garr) : garr := fun x y z v => a x y z v - b x y z v.
Definition vscale (c : C) (a : garr) : garr := fun x y z v => c * a x y z v.

(** [np.conj(u)*v] summed: lines 72, 109, 116. *)
Definition inner (u v : garr) : C := asum (fun x y z w => (u x y z w)^* * v x y z w).

(** eliashberg_equation.py:107-109, 113-116 [proj], [proj_eliash] (identical; [gk] unused). *)
Definition proj (v u : garr) : garr := vscale (inner u v / inner u u) u.
(** eliashberg_equation.py:86-97 [gram_schmidt], [gram_schmidt_eliash]: every
    projection is taken of the original [v]. *)
Definition gram_schmidt (v : garr) (basis : list garr) : garr :=
  foldl (fun acc u => vsub acc (proj v u)) v basis.

(** eliashberg_equation.py:100-104 [remove_prev_eigenvals] *)
Definition remove_prev_eigenvals (v : garr) (basis : list garr) (lams : list C) : garr :=
  foldl (fun acc ul => vsub acc (vscale (ul.2 * inner ul.1 v) ul.1)) v (zip basis lams).

(** [np.abs(gk)**2] *)
Definition abs2 (z : C) : C := z * z^*.

(** eliashberg_equation.py:29 and 66-68: one application of the kernel through
    fast Fourier transforms; [norm] is [self.norm]. *)
Definition gammax (gamma : varr) : varr := fun x y z v v' => fftn (fun i j l => gamma i j l v v') x y z.
Definition apply_kernel (gamma : varr) (gk : garr) (norm : C) (gap : garr) : garr :=
  let gap_gg := fun x y z v => ifftn (fun i j l => gap i j l v * abs2 (gk i j l v)) x y z in
  let gap_new := fun x y z v => 1 / norm * \sum_(v' < nv) gammax gamma x y z v v' * gap_gg x y z v' in
  fun x y z v => fftn (fun i j l => gap_new i j l v) x y z.

(** [np.abs] of a complex number. *)
Definition absc (z : C) : R := Num.sqrt (complex.Re z ^+ 2 + complex.Im z ^+ 2).

(** eliashberg_equation.py:64-78: the body of the while loop: new eigenvalue and new gap. *)
Definition pi_body (K : garr -> garr) (basis : list garr) (lam_s : option C) (gap_old : garr) : C * garr :=
  let g := gram_schmidt gap_old basis in
  let k := K g in
  let gap_new := match lam_s with Some s => vsub k (vscale s g) | None => k end in
  let lambda_new := inner g gap_new / inner g g in
  (lambda_new, vscale (lambda_new^-1) gap_new).

(** eliashberg_equation.py:62-80: the while loop.  [fuel] bounds the number of
    iterations of the model; [None] means the loop is still running.  The third
    component of the result is [count] (number of iterations performed). *)
Fixpoint pi_loop (K : garr -> garr) (basis : list garr) (lam_s : option C) (eps : R) (max_count : Z)
    (fuel : nat) (count : nat) (lambda_old : C) (gap_old : garr) : option (C * garr * nat) :=
  match fuel with
  | O => None
  | S fuel' =>
      let count' := S count in
      let '(lambda_new, gap) := pi_body K basis lam_s gap_old in
      if (absc (lambda_new - lambda_old) < eps) || Z.ltb max_count (Z.of_nat count')
      then Some (lambda_new, gap, count')
      else pi_loop K basis lam_s eps max_count fuel' count' lambda_new gap
  end.
(** eliashberg_equation.py:56-80 [power_iteration] with start vector [gap0]. *)
Definition power_iteration K basis lam_s eps max_count (gap0 : garr) (fuel : nat) :=
  pi_loop K basis lam_s eps max_count fuel 0 1 gap0.
(** More iterations than the loop can take (C37). *)
Definition pi_fuel (max_count : Z) : nat := S (Z.to_nat max_count).
(** [power_iteration] as a total function. *)
Definition power_iteration_run K basis lam_s eps max_count (gap0 : garr) : C * garr :=
  match power_iteration K basis lam_s eps max_count gap0 (pi_fuel max_count) with
  | Some (l, g, _) => (l, g)
  | None => (0, gap0)
  end.

(** numpy [z > 0] on a complex number: lexicographic. *)
Definition cgt0 (z : C) : bool := (0 < complex.Re z) || ((complex.Re z == 0) && (0 < complex.Im z)).

(** eliashberg_equation.py:46-49: [n_eig] searches, each orthogonalised against the gaps found so far. *)
Fixpoint eig_loop K lam_s eps max_count (gap0 : garr) (n : nat) (lams : list C) (gaps : list garr)
    : list C * list garr :=
  match n with
  | O => (lams, gaps)
  | S n' =>
      let '(l, g) := power_iteration_run K gaps lam_s eps max_count gap0 in
      eig_loop K lam_s eps max_count gap0 n' (rcons lams l) (rcons gaps g)
  end.
(** eliashberg_equation.py:42-54 [get_eig]; [gap0_s] is the random start vector of line 38. *)
Definition get_eig K eps max_count (gap0 gap0_s : garr) (shift_mat : bool) (n_eig : nat)
    : list C * list garr :=
  let lam_s := if shift_mat
               then let l := (power_iteration_run K [::] None eps max_count gap0_s).1 in
                    Some (if cgt0 l then 0 else l)
               else None in
  let '(lams, gaps) := eig_loop K lam_s eps max_count gap0 n_eig [::] [::] in
  (match lam_s with Some s => [seq l + s | l <- lams] | None => lams end, gaps).

(** eliashberg_equation.py:188-196 [symmetrize_gamma]; np.flip over the last axis of length [nv]. *)
Definition symmetrize_gamma (gamma : varr) (channel : string) : res varr :=
  let flip := fun x y z v v' => gamma x y z v (nv - 1 - v')%nat in
  if String.eqb channel "sing" then Ok (fun x y z v v' => 2%:R^-1 * (gamma x y z v v' + flip x y z v v'))
  else if String.eqb channel "trip" then Ok (fun x y z v v' => 2%:R^-1 * (gamma x y z v v' - flip x y z v v'))
  else Raise ValueError.

(** eliashberg_equation.py:143-152: the form factors on the grid.
    [np.cos(k_grid[0])[i]] is the real and [np.sin(k_grid[0])[i]] the imaginary
    part of exp(2 pi i/nkx)^i (k_grid[0] = np.linspace(0, 2 pi, nkx, endpoint=False),
    brillouin_zone.py:244-246). *)
Definition cos_grid (e : C) (i : nat) : R := complex.Re (e ^+ i).
Definition sin_grid (e : C) (i : nat) : R := complex.Im (e ^+ i).
Definition d_wave (i j l : nat) : R := - cos_grid ex i + cos_grid ey j.
Definition p_wave_y (i j l : nat) : R := sin_grid ex i * 0 + sin_grid ey j.
Definition p_wave_x (i j l : nat) : R := sin_grid ex i + 0 * sin_grid ey j.

(** eliashberg_equation.py:121-140 [get_gap_start]; [rnd1], [rnd2] are the random
    arrays of lines 130 and 137.  ValueError when the frequency axis has odd
    length (np.repeat gives niv columns for a slice of niv+1, lines 125-129, and
    lines 133-135 assign niv+1 columns to niv); for 'random' k and odd/even v
    the second assignment raises as well. *)
Definition k_form (k_type : string) : option (nat -> nat -> nat -> R) :=
  if String.eqb k_type "d-wave" then Some d_wave
  else if String.eqb k_type "p-wave-y" then Some p_wave_y
  else if String.eqb k_type "p-wave-x" then Some p_wave_x else None.
Definition get_gap_start (rnd1 rnd2 : garr) (k_type v_type : string) : res garr :=
  let niv := (nv %/ 2)%nat in
  let! gap0 := match k_form k_type with
               | Some f => if odd nv then Raise ValueError
                           else Ok (fun x y z v => if (v < niv)%nat then 0 else (f x y z)%:C)
               | None => Ok rnd1
               end in
  let fill (s : C) := if odd nv then Raise ValueError
     else Ok (fun x y z v => if (v < niv)%nat then s * gap0 x y z (v + niv)%nat else gap0 x y z v) in
  if String.eqb v_type "even" then fill 1
  else if String.eqb v_type "odd" then fill (-1)
  else Ok rnd2.

(** eliashberg_equation.py:155-184 [linear_eliashberg] without the plotting of
    lines 174-177: [gk] is the Green's function cut to the pairing window (line
    157), [fpp] the vertex stored as F_{channel}_pp, [k_sym] the configured gap
    symmetry (config.py:403-427 gives the frequency symmetry). *)
Definition linear_eliashberg (gk : garr) (fpp : varr) (nk_tot beta : C) (channel k_sym : string)
    (sym_sing sym_trip shift_mat : bool) (n_eig : nat) (eps : R) (max_count : Z)
    (rnd1 rnd2 gap0_s : garr) : res (list C * list garr) :=
  let norm := nk_tot * beta in
  let! v_type := (if String.eqb channel "sing" then Ok (gap0_sing_v k_sym)
                  else if String.eqb channel "trip" then Ok (gap0_trip_v k_sym) else Raise ValueError) in
  let! gap0 := get_gap_start rnd1 rnd2 k_sym v_type in
  let gamma := fun x y z v v' => - fpp x y z v v' in
  let! gamma := (if String.eqb channel "sing" then (if sym_sing then symmetrize_gamma gamma channel else Ok gamma)
                 else if sym_trip then symmetrize_gamma gamma channel else Ok gamma) in
  Ok (get_eig (apply_kernel gamma gk norm) eps max_count gap0 gap0_s shift_mat n_eig).
End Mesh.
End Eliashberg.
