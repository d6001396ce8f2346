(** Model of /repo/src/dga/analytic_continuation.py lines 40-78 (polynomial fits on the Matsubara axis) and of [poly_fit],
    /repo/src/dga/dga_io.py lines 163-180.

    Floating-point numbers are elements of a real closed field, pi is a parameter; [np.polyfit] is a parameter once its arguments have been
    checked (a polynomial instead of the list of its coefficients, the warning about a badly conditioned fit is not modelled).  [1 / 0],
    which is inf in numpy and 0 here, gives z = 1 in both cases.  Plotting and saving are not modelled. *)
From mathcomp Require Import all_ssreflect all_algebra.
From mathcomp.real_closed Require Import complex.
From Coq Require Import ZArith.
From Verif Require Import Base.PyBase Model.BrillouinZone.
Import GRing.Theory Num.Theory.
Set Implicit Arguments. Unset Strict Implicit. Unset Printing Implicit Defensive.
Local Open Scope ring_scope.

Section Fit.
Variable R : rcfType.
Notation C := R[i].
Variable cpi : R.
Variable polyfit : list R -> list R -> Z -> {poly R}.

(** [np.polyfit(x, y, deg)] with its checks *)
Definition np_polyfit (x y : list R) (deg : Z) : res {poly R} :=
  if (deg <? 0)%Z then Raise ValueError
  else if (zlen x =? 0)%Z then Raise TypeError
  else if negb (zlen x =? zlen y)%Z then Raise TypeError
  else Ok (polyfit x y deg).
(** [np.linspace(0, 1, 101)] *)
Definition x_new : list R := List.map (fun i => (Z.to_nat i)%:R / 100%:R) (arange 0 101).
(** lines 53-56 *)
Definition poly_extrap_0 (x y : list R) (order n_fit : Z) : res R :=
  let! fit := np_polyfit (slice x 0 n_fit) (slice y 0 n_fit) order in
  py_get (List.map (fun t => fit.[t]) x_new) 0.
(** lines 59-63 *)
Definition poly_der_extrap_0 (x y : list R) (order n_fit : Z) : res R :=
  let! fit := np_polyfit (slice x 0 n_fit) (slice y 0 n_fit) order in
  let der := deriv fit in
  py_get (List.map (fun t => der.[t]) x_new) 0.
(** [siw.imag / wn]; lengths must agree (broadcasting of arrays of length one is not modelled) *)
Definition np_div (a b : list R) : res (list R) := if (zlen a =? zlen b)%Z then Ok (map2 (fun x y => x / y) a b) else Raise ValueError.
(** lines 66-72; python's [max(z, 0)] is z unless z < 0, [min(a, 1)] is a unless 1 < a *)
Definition get_gamma_bandshift_z (wn : list R) (siw : list C) (order n_fit : Z) : res (R * R * R) :=
  let! g := poly_extrap_0 wn (List.map (fun z : C => complex.Im z) siw) order n_fit in
  let gamma := - g in
  let! bandshift := poly_extrap_0 wn (List.map (fun z : C => complex.Re z) siw) order n_fit in
  let! q := np_div (List.map (fun z : C => complex.Im z) siw) wn in
  let! s := poly_extrap_0 wn q order n_fit in
  let z := 1 / (1 - s) in
  let z := if z < 0 then 0 else z in
  let z := if 1 < z then 1 else z in
  let z := if z == 0 then 1 else z in
  Ok (gamma, bandshift, z).
(** lines 75-78 *)
Definition extract_coefficient_imaxis (siwk : list C) (iw : list R) (n_fit order : Z) : res (R * R * R) :=
  let! r := get_gamma_bandshift_z iw siwk order n_fit in
  let: (gamma, bandshift, z) := r in Ok (bandshift, gamma, z).
(** lines 40-50; [siwk] is a list of rows *)
Definition extract_coeff_on_ind (siwk : list (list C)) (indizes : list Z) (v : list R) (n_fit order : Z) : res (list R * list R * list R) :=
  let! l := mapM (fun ind => let! row := py_get siwk ind in extract_coefficient_imaxis row v n_fit order) indizes in
  Ok (List.map (fun t => t.1.1) l, List.map (fun t => t.1.2) l, List.map (fun t => t.2) l).
(** matsubara_frequencies.py [vn(beta, n, pos=True)] *)
Definition vn_pos (beta : R) (n : Z) : list R := List.map (fun i => cpi * (Z.to_nat (2 * i + 1))%:R / beta) (arange 0 n).
(** dga_io.py 163-180: the frequency axis is the last of [mat_data]; all rows have length [nv].  [np.squeeze] removes axes of length one; a row
    of the remaining vector is a scalar, and slicing that raises IndexError. *)
Definition poly_fit (g : kgrid) (mat_data : list (list (list (list C)))) (nv : Z) (beta : R) (n_fit order : Z) :
  res (list (list (list R)) * list (list (list R)) * list (list (list R))) :=
  let v := vn_pos beta (nv / 2) in
  let rows := List.map (fun row => slice row (nv / 2) (zlen row)) (flatten3 mat_data) in
  if ((zlen rows =? 1) || (nv - nv / 2 =? 1))%Z then Raise IndexError else
  let! r := extract_coeff_on_ind rows (irrk_ind g) v n_fit order in
  let: (re_fs, im_fs, z) := r in
  let! re_fs := map_irrk2fbz g re_fs in
  let! im_fs := map_irrk2fbz g im_fs in
  let! z := map_irrk2fbz g z in
  Ok (re_fs, im_fs, z).
End Fit.
