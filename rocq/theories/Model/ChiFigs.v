(** Model of the figure with the checks of the susceptibility: /repo/src/dga/plotting.py 152-191 [chi_checks]; /repo/src/dga/matsubara_frequencies.py 306-318 [wn], [wn_beta].

    Real arithmetic; complex numbers are pairs.  [green.beta] is a float, so that [mf.wn(green.beta, n)] is the overload with beta.  [e_kin] is [green.e_kin], a real number.  Labels, limits of the axes and the file are left out. *)
From Coq Require Import ZArith Reals List.
From Verif Require Import Base.PyBase Base.Arr Model.Matsubara Model.MaxEnt Model.SanityFigs.
Import ListNotations.
Set Implicit Arguments.
Local Open Scope R_scope.

(** [1 / z ** 2] *)
Definition csq (z : R * R) : R * R := (fst z * fst z - snd z * snd z, 2 * fst z * snd z).
Definition cinv (z : R * R) : R * R := let d := fst z * fst z + snd z * snd z in (fst z / d, - snd z / d).
(** plotting.py:174, 182: [np.real(1 / (1j * mf.wn(green.beta, n) + 0.000001) ** 2 * green.e_kin) * 2], the same in both panels *)
Definition asymptote (beta e_kin : R) (n : Z) : list R := map (fun m => fst (cinv (csq (0.000001, 2 * PI / beta * IZR m))) * e_kin * 2) (wn n 0 false).
(** [ax.plot(mf.wn(len(cd) // 2), cd.real)] *)
Definition chi_curve (cd : list (R * R)) : res curve := plot_xy (map IZR (wn (zlen cd / 2) 0 false)) (map fst cd).
Definition chi_loglog (cd : list (R * R)) : res curve := loglog_xy (map IZR (wn (zlen cd / 2) 0 false)) (map fst cd).
Record chi_figure := ChiFigure { c_dens : list curve; c_magn : list curve; c_dens_log : list curve; c_dens_asy : curve; c_magn_log : list curve; c_magn_asy : curve }.
(** plotting.py:152-185 *)
Definition chi_checks (chi_dens chi_magn : list (list (R * R))) (beta e_kin : R) : res chi_figure :=
  let! first := py_get chi_dens 0 in
  let niw_chi_input := zlen first in
  let! a := mapM chi_curve chi_dens in
  let! b := mapM chi_curve chi_magn in
  let! c := mapM chi_loglog chi_dens in
  let! d := loglog_xy (map IZR (wn niw_chi_input 0 false)) (asymptote beta e_kin niw_chi_input) in
  let! e := mapM chi_loglog chi_magn in
  let! f := loglog_xy (map IZR (wn niw_chi_input 0 false)) (asymptote beta e_kin niw_chi_input) in
  Ok (ChiFigure a b c d e f).
