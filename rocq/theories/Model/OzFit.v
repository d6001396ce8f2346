(** Model of /repo/src/dga/ornstein_zernicke_function.py and of its use in
    dga_io.py:133-143.  Floats are real numbers; division by zero is total. *)
From Coq Require Import Reals List.
From Verif Require Import Base.PyBase Model.Wannier Model.HkFile.
Import ListNotations.
Local Open Scope R_scope.

(** ornstein_zernicke_function.py:15-21 [oz_spin_w0] at one momentum; xi ** (-2) *)
Definition oz_at (a xi qx qy qz : R) : R := a / (/ (xi ^ 2) + (qx - PI) ^ 2 + (qy - PI) ^ 2 + (qz - 0) ^ 2).
(** ornstein_zernicke_function.py:15-21 [oz_spin_w0]: the axes (brillouin_zone.py:244-246)
    are broadcast to [nkx,nky,nkz] and flattened in C order. *)
Definition oz_spin_w0 (nkx nky nkz : nat) (a xi : R) : list R :=
  mesh_list nkx nky nkz (fun ix iy iz => oz_at a xi (kaxis nkx ix) (kaxis nky iy) (kaxis nkz iz)).

(** np.max of a non-empty array; ValueError for an empty one *)
Definition np_max (l : list R) : res R := match l with [] => Raise ValueError | x :: t => Ok (fold_left Rmax t x) end.
(** ornstein_zernicke_function.py:24-27 [fit_oz_spin]: scipy's curve_fit, a
    parameter, gets the model function, the data and the start (max chi, 2). *)
Definition fit_oz_spin (curve_fit : (R -> R -> list R) -> list R -> R * R -> res (R * R)) (nkx nky nkz : nat) (chi : list R) : res (R * R) :=
  let! m := np_max chi in curve_fit (oz_spin_w0 nkx nky nkz) chi (m, 2).
(** dga_io.py:133-143 [fit_and_plot_oz]: the coefficients written to oz_coeff.txt; chi
    has the axes [qx,qy,qz,w] and the zero frequency is the middle one; any
    exception gives (-1,-1).  [chi ix iy iz] is the list of real parts over w. *)
Definition oz_coeff (curve_fit : (R -> R -> list R) -> list R -> R * R -> res (R * R)) (nkx nky nkz nw : nat) (chi : nat -> nat -> nat -> list R) : R * R :=
  let chi_w0 := mesh_list nkx nky nkz (fun ix iy iz => nth (Nat.div nw 2) (chi ix iy iz) 0) in
  match fit_oz_spin curve_fit nkx nky nkz chi_w0 with Ok p => p | Raise _ => (-1, -1) end.
