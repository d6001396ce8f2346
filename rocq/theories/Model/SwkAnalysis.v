(** Model of the analysis of a continued momentum-dependent self-energy (/repo/src/postproc/real_frequency_two_point.py, /repo/src/postproc/plot_siwk_cont.py).

    Floating-point numbers are real numbers, complex numbers are pairs of them.  A division by zero (numpy: inf and nan with a warning) is Coq's total
    division.  Broadcasting of axes of length one is left out: [get_giwk] raises unless the shapes agree.  Parameters: [minimize], which stands for
    [scipy.optimize.minimize(f, x0).x], and [contour], matplotlib's zero line (see Model/ShownK.v).  The printed values of mu, the styling of the figure,
    its colour norms and masks, the cuts along the four paths except for their numbers (lines 165-177), and the reading of files are left out; an axis of
    the returned [fit.x] (shape (1,)) is left out as well. *)
From Coq Require Import ZArith Reals List.
From Verif Require Import Base.PyBase Base.Arr Model.BrillouinZone Model.KPath Model.MaxEnt Model.RealMesh Model.ShownK.
Import ListNotations.
Set Implicit Arguments.
Local Open Scope R_scope.

(** an array [kx, ky, kz, w] *)
Definition arr4 (A : Type) := list (list (list (list A))).
Definition map4 {A B} (f : A -> B) (m : arr4 A) : arr4 B := map (map (map (map f))) m.
(** complex [1 / z] *)
Definition cinv (z : C) : C := (fst z / (fst z * fst z + snd z * snd z), - snd z / (fst z * fst z + snd z * snd z)).

(** plot_siwk_cont.py:47-48, for one entry *)
Definition cut_entry (cut_off : R) (s : C) : C := if Rlt_dec (Rabs (snd s)) cut_off then (fst s, - cut_off) else s.
Definition cut_small (cut_off : R) (swk : arr4 C) : arr4 C := map4 (cut_entry cut_off) swk.

(** real_frequency_two_point.py:4-7 [get_dqp_bw] *)
Definition get_dqp_bw (data : arr4 R) : arr4 R := map4 (fun x => if Rlt_dec x 0 then 0 else 1) data.

(** the shapes of [w[None,None,None,:]], [ek[...,None]] and [siwk] agree *)
Definition dim2 {A} (m : list (list (list A))) : Z := match m with (r :: _) :: _ => zlen r | _ => 0%Z end.
Definition shapes_agree (siwk : arr4 C) (w : list R) (ek : list (list (list R))) : bool :=
  shape3b siwk (zlen ek) (dim1 ek) (dim2 ek) && shape3b ek (zlen ek) (dim1 ek) (dim2 ek) && forallb (forallb (forallb (fun s => (zlen s =? zlen w)%Z))) siwk.
(** lines 9-10 *)
Definition get_giwk (mu : R) (siwk : arr4 C) (w : list R) (ek : list (list (list R))) : res (arr4 C) :=
  if negb (shapes_agree siwk w ek) then Raise ValueError
  else Ok (map2 (map2 (map2 (fun e s => map2 (fun x sg => cinv (x + mu - e - fst sg, - snd sg)) w s))) ek siwk).

(** [np.mean(m, axis=(0,1,2))] *)
Definition vadd (a b : list R) : list R := map2 Rplus a b.
Definition mean_k (nw : Z) (m : arr4 R) : list R :=
  let ks := concat (concat m) in
  map (fun s => s / IZR (zlen ks)) (fold_right vadd (repeat 0 (Z.to_nat nw)) ks).
(** [l[ind]] with [ind = w <= 0] *)
Fixpoint occupied {A} (w : list R) (l : list A) : list A :=
  match w, l with
  | x :: w', a :: l' => if Rle_dec x 0 then a :: occupied w' l' else occupied w' l'
  | _, _ => []
  end.
(** lines 12-14 *)
Definition get_filling (w : list R) (giwk : arr4 C) : R :=
  trapz (occupied w (mean_k (zlen w) (map4 (fun g => - 1 / PI * snd g) giwk))) (occupied w w).
(** lines 16-20 *)
Definition opt_func (mu n : R) (siwk : arr4 C) (w : list R) (ek : list (list (list R))) : res R :=
  let! giwk := get_giwk mu siwk w ek in
  let fill_current := get_filling w giwk in
  Ok ((fill_current * 2 - n) ^ 2).

Section Run.
Variable minimize : (R -> R) -> R -> R.
Variable contour : list (list R) -> list (list (R * R)).

(** lines 22-24; whether [opt_func] raises does not depend on mu *)
Definition adjust_mu (mu0 n_target : R) (siwk : arr4 C) (w : list R) (ek : list (list (list R))) : res R :=
  let! _ := opt_func mu0 n_target siwk w ek in
  Ok (minimize (fun mu => match opt_func mu n_target siwk w ek with Ok v => v | Raise _ => 0 end) mu0).

(** plot_siwk_cont.py:46-71: what is saved: gwk_cont.npy and the column mu_dga, mu_lda of mu_dga.txt; [mu_txt] is the row of mu.txt *)
Record saved := Saved { gwk_cont : arr4 C; mu_dga : list R }.
Definition main_saved (swk : arr4 C) (w mu_txt : list R) (n_target : R) (ek : list (list (list R))) : res saved :=
  let cut_off := 0.04 in
  let swk := cut_small cut_off swk in
  let! mu0 := py_get mu_txt 0 in
  let! mu := adjust_mu mu0 n_target swk w ek in
  let! mu_lda := adjust_mu mu0 n_target (map4 (fun _ => (0, 0)) swk) w ek in
  let! gwk := get_giwk mu swk w ek in
  Ok (Saved gwk [mu; mu_lda]).

(** [pcolormesh(x, y, data)]: the value of a cell and where it is drawn, rows upwards, columns to the right; the sizes have to fit *)
Definition pcolormesh (x y : list R) (data : list (list R)) : res (list (R * R * R)) :=
  if negb (shape2b data (zlen y) (zlen x)) then Raise TypeError
  else Ok (concat (map2 (fun yj row => map2 (fun xi v => (xi, yj, v)) x row) y data)).

(** [m[:,:,0,nw0]] *)
Definition layer {A} (m : arr4 A) (nw0 : Z) : res (list (list A)) := mapM (mapM (fun c => let! s := py_get c 0 in py_get s nw0)) m.

(** plot_siwk_cont.py:72-77, 97-101, 138: the axis, the spectral map, and the points of the Fermi line of panel (a) *)
Record panel := Panel { shown_map : list (R * R * R); fermi_points : list (R * R); quasi : arr4 R }.
Definition main_panel (nk0 : Z) (w : list R) (gwk : arr4 C) : res panel :=
  let gwk_shift := shift_mat_by_pi gwk in
  let nw0 := argmin (map Rabs w) in
  let! kx_shift := linspace (- PI) PI nk0 in
  let qpd := get_dqp_bw (map4 (fun g => fst (cinv g)) gwk_shift) in
  let! g0 := layer gwk_shift nw0 in
  let! fs_loc := find_zeros contour g0 in
  let! k_points_fermi :=
    match fs_loc with
    | [] => Raise IndexError
    | _ => mapM (fun p => let! a := py_get kx_shift (fst p) in let! b := py_get kx_shift (snd p) in Ok (a, b)) fs_loc
    end in
  let! im1 := pcolormesh kx_shift kx_shift (map (map (fun g => - 1 / PI * snd g)) g0) in
  Ok (Panel im1 k_points_fermi qpd).

(** plot_siwk_cont.py:165-177 [plot_kpath]: for every point of the path the column of the spectral map and the white line; [mu_lda] is the second number saved *)
Definition path_cut (gwk : arr4 C) (ek : list (list (list R))) (mu_lda : R) (kpts : list zpoint) : res (list (list R * R)) :=
  let gwk_shift := shift_mat_by_pi gwk in
  let ek_shift := shift_mat_by_pi ek in
  mapM (fun p => let '(ikx, iky, _) := p in
    let! a := py_get gwk_shift ikx in let! a := py_get a iky in let! a := py_get a 0 in
    let! e := py_get ek_shift ikx in let! e := py_get e iky in let! e := py_get e 0 in
    Ok (map (fun g => - 1 / PI * snd g) a, e - mu_lda)) kpts.

(** the whole of [main] up to the figure: what has been saved, and how the figure ends *)
Definition main (swk : arr4 C) (w mu_txt : list R) (n_target : R) (ek : list (list (list R))) (nk0 : Z) : res (saved * res panel) :=
  let! s := main_saved swk w mu_txt n_target ek in Ok (s, main_panel nk0 w (gwk_cont s)).
End Run.
