(** Model of the figures of local vertices: /repo/src/dga/local_four_point.py 41-63 [plot_fourpoint_nu_nup], 178-182 [LocalFourPoint.plot]; /repo/src/dga/plotting.py 58-80 [default_g2_plots], [default_gchi_plots],
    [default_gamma_plots].

    The objects are those of a run: is_full_w is set, so that the frequencies are [mf.wn(niw_from_mat(mat, axis=0))].  Real arithmetic.  A figure is the list of (x, y, value) of both panels; titles, colours and the
    name of the file (which holds name, iwn and niv) are left out; matplotlib's behaviour on an array without entries is not modelled. *)
From Coq Require Import ZArith Reals List String.
From Verif Require Import Base.PyBase Base.Arr Model.Matsubara Model.BrillouinZone Model.SwkAnalysis.
Import ListNotations.
Set Implicit Arguments.
Local Open Scope R_scope.

Definition vertex := list (list (list (R * R))).
Definition map2d := list (R * R * R).
(** local_four_point.py:41-46 *)
Definition plot_fourpoint_nu_nup (mat : list (list (R * R))) : res (map2d * map2d) :=
  let vn := map IZR (vn (dim1 mat / 2) 0 false) in
  let! im1 := pcolormesh vn vn (map (map fst) mat) in
  let! im2 := pcolormesh vn vn (map (map snd) mat) in Ok (im1, im2).
(** local_four_point.py:178-182; [self.wn_lin[self.wn == iwn][0]] *)
Definition plot (mat : vertex) (iwn niv : Z) : res (map2d * map2d) :=
  let wn := wn (zlen mat / 2) 0 false in
  if negb (existsb (Z.eqb iwn) wn) then Raise AssertionError else
  let! iwn_lin := py_get (map snd (filter (fun p => Z.eqb (fst p) iwn) (combine wn (arange 0 (zlen wn))))) 0 in
  let! m := py_get mat iwn_lin in
  plot_fourpoint_nu_nup (cut_v_2 m niv).
Record figure := Figure { fig_name : string; fig_iwn : Z; fig_maps : map2d * map2d }.
Definition plots (l : list (string * vertex * Z)) (niv : Z) : res (list figure) :=
  mapM (fun x => let '(name, mat, iwn) := x in let! f := plot mat iwn niv in Ok (Figure name iwn f)) l.
Local Open Scope string_scope.
(** plotting.py:58-63, called in every run (dga_main.py:83) *)
Definition default_g2_plots (g2_dens g2_magn : vertex) : res (list figure) :=
  plots [("G2_dens", g2_dens, 0%Z); ("G2_magn", g2_magn, 0%Z); ("G2_magn", g2_magn, 10%Z); ("G2_magn", g2_magn, (-10)%Z)] (-1).
(** plotting.py:66-69 *)
Definition default_gchi_plots (gchi_dens gchi_magn : vertex) : res (list figure) := plots [("Gchi_dens", gchi_dens, 0%Z); ("Gchi_magn", gchi_magn, 0%Z)] (-1).
(** plotting.py:72-79; [int_beta]: [int(beta)] *)
Definition default_gamma_plots (gamma_dens gamma_magn : vertex) (niv_core int_beta : Z) : res (list figure) :=
  plots [("Gamma_dens", gamma_dens, 0%Z); ("Gamma_magn", gamma_magn, 0%Z); ("Gamma_magn", gamma_magn, 10%Z); ("Gamma_magn", gamma_magn, (-10)%Z); ("Gamma_dens", gamma_dens, 10%Z)] (Z.min niv_core (2 * int_beta)).
