(** Model of the maps in the figures: colours, maps over the zone, and the dispersion of a continued susceptibility
    (/repo/src/dga/plotting.py 29-37, 120-128, 397-415, 431-491; high_level_plotting.py 58-74).

    Floating-point numbers are real numbers without nan, complex numbers pairs of them; a division by zero (numpy: inf and nan with a warning) is Coq's total
    division.  A figure is the list of what is drawn: (place, place, value).  Styling, titles, colour bars, limits of maps and the written files are left out.
    Maps with an axis of length one (which [np.squeeze] removes; the figure then raises) all raise ValueError here. *)
From Coq Require Import ZArith Reals List.
From Verif Require Import Base.PyBase Base.Arr Model.BrillouinZone Model.KPath Model.MaxEnt Model.RealMesh Model.ShownK Model.PathPlot Model.SwkAnalysis.
Import ListNotations.
Set Implicit Arguments.
Local Open Scope R_scope.

(** [np.interp(v, [x0, x1, x2], [y0, y1, y2])].  numpy does not look whether the points are increasing: below the first point it takes the first value, above
    the last point the last one; else it looks from the left for the last point that is passed without a gap (its search for up to four points). *)
Definition interp3 (v x0 x1 x2 y0 y1 y2 : R) : R :=
  let on := fun xa ya xb yb => if Req_EM_T xa v then ya else (yb - ya) / (xb - xa) * (v - xa) + ya in
  if Rlt_dec x2 v then y2
  else if Rlt_dec v x0 then y0
  else if Rle_dec x1 v then (if Rle_dec x2 v then y2 else on x1 y1 x2 y2)
  else on x0 y0 x1 y1.
(** plotting.py:29-37 [MidpointNormalize.__call__] *)
Definition midpoint_normalize (vmin midpoint vmax : R) (value : list (list R)) : list (list R) :=
  map (map (fun v => interp3 v vmin midpoint vmax 0 0.5 1)) value.
(** [a.min()], [a.max()] *)
Definition rmin (l : list R) : res R := match l with [] => Raise ValueError | x :: l' => Ok (fold_left Rmin l' x) end.
Definition rmax (l : list R) : res R := match l with [] => Raise ValueError | x :: l' => Ok (fold_left Rmax l' x) end.
(** [norm = MidpointNormalize(midpoint=0, vmin=a.min(), vmax=a.max())] applied to a *)
Definition colours (a : list (list R)) : res (list (list R)) :=
  let! lo := rmin (concat a) in let! hi := rmax (concat a) in Ok (midpoint_normalize lo 0 hi a).

(** [np.squeeze] of a two-dimensional array that has to stay two-dimensional *)
Definition squeeze2 {A} (m : list (list A)) : res (list (list A)) := if ((zlen m <? 2) || (dim1 m <? 2))%Z%bool then Raise ValueError else Ok m.

(** plotting.py:120-127 [plot_kx_ky]: [mat] as rows of complex numbers; the second axis of [mat] has length [n2] *)
Definition plot_kx_ky (mat : list (list C)) (n2 : Z) (kx ky : list R) : res (list (R * R * R) * list (R * R * R)) :=
  let! im1 := pcolormesh kx ky (transpose n2 (map (map fst) mat)) in
  let! im2 := pcolormesh kx ky (transpose n2 (map (map snd) mat)) in Ok (im1, im2).

(** plotting.py:404-406 [plot_siwk_extrap], one panel, for data with one kz (line 400): drawn values, and their colours *)
Definition extrap_panel (n1 n2 : Z) (data : list (list R)) : res (list (R * R * R) * list (R * R * R)) :=
  let! data := squeeze2 data in
  let shown := fun d => pcolormesh (k_shift n1) (k_shift n2) (transpose n2 (shift_xy_by_pi d None)) in
  let! col := colours data in
  let! im := shown data in let! im_col := shown col in Ok (im, im_col).

(** plotting.py:434-439: the data at the frequency nearest to [w_plot], or their mean over w_int < w < 0 *)
Fixpoint window (w_int : R) {A} (v_real : list R) (l : list A) : list A :=
  match v_real, l with
  | v :: vs, a :: l' => if Rlt_dec v 0 then (if Rlt_dec w_int v then a :: window w_int vs l' else window w_int vs l') else window w_int vs l'
  | _, _ => []
  end.
Definition fs_data (w_int : option R) (w_plot : R) (v_real : list R) (mat : arr4 C) : res (list (list C)) :=
  match w_int with
  | None => layer mat (argmin (map (fun v => Rabs (v - w_plot)) v_real))
  | Some wi =>
      mapM (mapM (fun c => let! s := py_get c 0 in
        let y := window wi v_real s in let x := window wi v_real v_real in
        Ok (trapz (map fst y) x / Rabs wi, trapz (map snd y) x / Rabs wi))) mat
  end.
Record fs_fig (A : Type) := FsFig { p_awk : A; p_re : A; p_qdp : A }.
(** plotting.py:431-454 [plot_cont_fs] on a grid of [n1] times [n2] momenta *)
Definition plot_cont_fs (n1 n2 : Z) (w_int : option R) (w_plot : R) (v_real : list R) (mat : arr4 C) : res (fs_fig (list (R * R * R))) :=
  let! mat_fs := fs_data w_int w_plot v_real mat in
  let! awk_fs := squeeze2 (shift_xy_by_pi (map (map (fun g => - 1 / PI * snd g)) mat_fs) (Some (n1, n2))) in
  let! gk_real := squeeze2 (shift_xy_by_pi (map (map fst) mat_fs) (Some (n1, n2))) in
  let v0 := argmin (map Rabs v_real) in
  let! inv := layer (map4 cinv mat) v0 in
  let! qdp := squeeze2 (shift_xy_by_pi (map (map fst) inv) (Some (n1, n2))) in
  let! a := pcolormesh (k_shift n1) (k_shift n2) (transpose n2 awk_fs) in
  let! b := pcolormesh (k_shift n1) (k_shift n2) (transpose n2 gk_real) in
  let! c := pcolormesh (k_shift n1) (k_shift n2) (transpose n2 qdp) in
  Ok (FsFig a b c).

(** [imshow(data, extent=[x0, x1, y0, y1], origin='lower')]: the centre of every pixel and its value; rows upwards *)
Definition imshow (x0 x1 y0 y1 : R) (data : list (list R)) : list (R * R * R) :=
  let nr := IZR (zlen data) in let nc := IZR (dim1 data) in
  concat (map2 (fun r row => map2 (fun c v => (x0 + (IZR c + / 2) * ((x1 - x0) / nc), y0 + (IZR r + / 2) * ((y1 - y0) / nr), v)) (arange 0 (zlen row)) row) (arange 0 (zlen data)) data).
(** plotting.py:467-490 [plot_cont_fs_no_shift] *)
Definition plot_cont_fs_no_shift (n1 n2 : Z) (w_int : option R) (w_plot : R) (v_real : list R) (mat : arr4 C) : res (fs_fig (list (R * R * R))) :=
  let! mat_fs := fs_data w_int w_plot v_real mat in
  let! awk_fs := squeeze2 (map (map (fun g => - 1 / PI * snd g)) mat_fs) in
  let! gk_real := squeeze2 (map (map fst) mat_fs) in
  let v0 := argmin (map Rabs v_real) in
  let! inv := layer (map4 cinv mat) v0 in
  let! qdp := squeeze2 (map (map fst) inv) in
  let! e := get_extent n1 n2 in
  match e with
  | [x0; x1; y0; y1] => Ok (FsFig (imshow x0 x1 y0 y1 awk_fs) (imshow x0 x1 y0 y1 gk_real) (imshow x0 x1 y0 y1 qdp))
  | _ => Raise IndexError
  end.

(** [np.argmax] of complex numbers: numpy orders them by the real part, then by the imaginary part; the first largest one *)
Definition cgt (a b : C) : bool := if Rlt_dec (fst b) (fst a) then true else if Req_EM_T (fst a) (fst b) then (if Rlt_dec (snd b) (snd a) then true else false) else false.
Fixpoint argmaxc_from (best : C) (ibest i : Z) (l : list C) : Z :=
  match l with
  | [] => ibest
  | x :: l' => if cgt x best then argmaxc_from x i (i + 1) l' else argmaxc_from best ibest (i + 1) l'
  end.
Definition argmaxc (l : list C) : res Z := match l with [] => Raise ValueError | x :: l' => Ok (argmaxc_from x 0 1 l') end.

(** high_level_plotting.py:58-73 [plot_chi_along_kpath]: the map, the line, and the limits of the frequency axis; [k_axis], [kpts] are those of the path *)
Record chi_fig := ChiFig { chi_map : list (R * R * R); chi_line : list (R * R); chi_ylim : R * R }.
Definition plot_chi_along_kpath (chi : arr4 C) (w k_axis : list R) (kpts : list zpoint) : res chi_fig :=
  let! wmin := py_get w (argmin (map Rabs w) + 1) in
  let! chi_kpath := map_to_kpath kpts chi in
  let! im1 := pcolormesh k_axis w (map2 (fun x row => map (fun g => fst g * x) row) w (transpose (zlen w) chi_kpath)) in
  let! peaks := mapM (fun s => argmaxc (map2 (fun g x => (fst g * x, snd g * x)) s w)) chi_kpath in
  let! w_peaks := mapM (py_get w) peaks in
  let! m := rmax w_peaks in
  Ok (ChiFig im1 (combine k_axis w_peaks) (wmin, m * 2)).
