(** Model of the figures a run makes for inspection: /repo/src/dga/plotting.py 82-117 [plot_along_ind], 233-277 [sigma_loc_checks], 503-534 [plot_oz_fit].

    Real arithmetic; complex numbers are pairs.  A figure is the list of curves, a curve the list of its points.  Colours, legends (except that they need a curve),
    limits of the axes and the written files are left out. *)
From Coq Require Import ZArith Reals List.
From Verif Require Import Base.PyBase Base.Arr Model.Matsubara Model.KPath Model.MaxEnt Model.RealMesh Model.SwkAnalysis.
Import ListNotations.
Set Implicit Arguments.
Local Open Scope R_scope.

Definition curve := list (R * R).
(** [ax.plot(x, y)]: x and y must have the same length *)
Definition plot_xy (x y : list R) : res curve := if (zlen x =? zlen y)%Z then Ok (combine x y) else Raise ValueError.
(** [ax.loglog(x, y)]: on logarithmic axes a point is visible if both coordinates are positive (matplotlib clips the others to the border of the figure) *)
Definition loglog_xy (x y : list R) : res curve := rmap (filter (fun p => if Rlt_dec 0 (fst p) then (if Rlt_dec 0 (snd p) then true else false) else false)) (plot_xy x y).

(** plotting.py:511-512, 518-519, 525-529: one data set in the three panels of [plot_oz_fit] *)
Record oz_panels := OzPanels { oz_y : curve; oz_x : curve; oz_diag : curve }.
(** [mat[mask]] with [mask = kmesh[0] == kmesh[1]], in the order of the array *)
Definition masked {A} (n1 n2 : Z) (mat : list (list (list A))) : list A :=
  concat (map2 (fun kx p => concat (map2 (fun ky c => if Req_EM_T kx ky then c else []) (k_axis n2) p)) (k_axis n1) mat).
Definition oz_data (n1 n2 : Z) (mat : list (list (list R))) : res oz_panels :=
  let! y := mapM (fun p => let! c := py_get p (n2 / 2) in py_get c 0) mat in
  let! a := plot_xy (k_axis n1) y in
  let! p := py_get mat (n1 / 2) in
  let! y := mapM (fun c => py_get c 0) p in
  let! b := plot_xy (k_axis n2) y in
  let m := masked n1 n2 mat in
  let! x_axis := linspace 0 (2 * PI) (zlen m) in
  let! c := plot_xy x_axis m in
  Ok (OzPanels a b c).
(** plotting.py:503-534: the susceptibility and the fit; [oz] is [oz_spin_w0] on the grid, reshaped *)
Definition plot_oz_fit (n1 n2 : Z) (chi_w0 oz : list (list (list R))) : res (oz_panels * oz_panels) :=
  let! a := oz_data n1 n2 chi_w0 in let! b := oz_data n1 n2 oz in Ok (a, b).

(** plotting.py:233-261 [sigma_loc_checks]: per self-energy the curves of the four panels *)
Record sigma_panels := SigmaPanels { s_re : curve; s_im : curve; s_re_log : curve; s_im_log : curve }.
Definition sigma_loc_checks (siw_arr : list (list C)) : res (list sigma_panels) :=
  mapM (fun siw : list C =>
    let v := map IZR (vn (zlen siw / 2) 0 false) in
    let! a := plot_xy v (map fst siw) in
    let! b := plot_xy v (map snd siw) in
    let! c := loglog_xy v (map fst siw) in
    let! d := loglog_xy v (map (fun s => Rabs (snd s)) siw) in
    Ok (SigmaPanels a b c d)) siw_arr.

(** plotting.py:88-90, 98, 105-106 [plot_along_ind] with step_size=1 and ikz=0 (as it is called): the curves of both panels.  [n4]: the length of the last axis.
    The boolean index needs one entry per frequency.  The legend takes the first and last curve, [hlines] the first and last frequency. *)
Definition in_window (lo hi v : Z) : bool := ((lo <=? v) && (v <=? hi))%Z%bool.
Definition window_vals {A} (lo hi : Z) (vn : list Z) (l : list A) : res (list A) :=
  if (zlen vn =? zlen l)%Z then Ok (map snd (filter (fun p => in_window lo hi (fst p)) (combine vn l))) else Raise IndexError.
Definition plot_along_ind (mat : arr4 C) (n4 : Z) (indizes : list (Z * Z)) (niv_plot_min niv_plot : Z) : res (list curve * list curve) :=
  let niv_plot := if (niv_plot =? -1)%Z then (n4 / 2)%Z else niv_plot in
  let vn := vn (n4 / 2) 0 false in
  let w := map IZR (filter (in_window niv_plot_min niv_plot) vn) in
  let one := fun (part : C -> R) (ind : Z * Z) =>
    let! p := py_get mat (fst ind) in let! r := py_get p (snd ind) in let! c := py_get r 0 in
    let! y := window_vals niv_plot_min niv_plot vn c in plot_xy w (map part y) in
  let! re := mapM (one fst) indizes in
  let! _ := py_get re 0 in
  let! im := mapM (one snd) indizes in
  let! _ := py_get w 0 in Ok (re, im).
