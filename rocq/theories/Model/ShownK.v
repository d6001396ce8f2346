(** Model of how momentum-dependent data are shown and cut: data shifted by pi with their momentum axes, planes of constant momentum, and zero lines
    (/repo/src/dga/brillouin_zone.py 34-66, 174-188, 329-351; plotting.py 41-55; two_point.py 502-513; dga_io.py 223-249).

    Numbers are real numbers.  Parameter [contour]: matplotlib's zero line of an array given on integer coordinates, a list of paths, each a list of
    vertices (x, y); x counts the columns, y the rows.  Figures are left out. *)
From Coq Require Import ZArith Reals List.
From Verif Require Import Base.PyBase Base.Arr Model.BrillouinZone Model.KPath Model.MaxEnt Model.LocalCont.
Import ListNotations.
Set Implicit Arguments.
Local Open Scope Z_scope.

(** brillouin_zone.py:42-48 [shift_mat_by_pi] of the module; [nk] is its optional argument *)
Definition shift_xy_by_pi {A} (mat : list (list A)) (nk : option (Z * Z)) : list (list A) :=
  let (n1, n2) := match nk with Some n => n | None => (zlen mat, dim1 mat) end in
  let mat_shift := roll mat (n1 / 2) in
  map (fun r => roll r (n2 / 2)) mat_shift.
(** lines 174-184 [kx_shift], [ky_shift], [kz_shift] for an axis of [n] momenta *)
Definition k_shift (n : Z) : list R := map (fun k => k - PI)%R (k_axis n).
(** lines 34-39 *)
Definition get_extent (n1 n2 : Z) : res (list R) :=
  let! a := py_get (k_axis n1) 0 in let! b := py_get (k_axis n1) (-1) in let! c := py_get (k_axis n2) 0 in let! d := py_get (k_axis n2) (-1) in
  Ok [a; b; c; d].
Definition get_extent_pi_shift (n1 n2 : Z) : res (list R) := let! l := get_extent n1 n2 in Ok (map (fun k => k - PI)%R l).
(** lines 329-334 *)
Definition add_q_to_kgrid (nk : zpoint) (q : list R) : res (list (list R)) :=
  let '(n1, n2, n3) := nk in
  if negb (zlen [k_axis n1; k_axis n2; k_axis n3] =? zlen q) then Raise AssertionError
  else Ok (map2 (fun axis qi => map (fun k => k - qi)%R axis) [k_axis n1; k_axis n2; k_axis n3] q).
(** lines 336-351; nk is a tuple *)
Definition get_k_slice {A} (nk : zpoint) (mat : list (list (list A))) (k_slice_dim : Z) (k_slice_val : R) : res (list (list A)) :=
  let '(n1, n2, n3) := nk in
  if negb ((0 <=? k_slice_dim) && (k_slice_dim <? 3)) then Raise AssertionError
  else if negb (shape3b mat n1 n2 n3) then Raise AssertionError
  else if k_slice_dim =? 0 then
    py_get mat (argmin (map (fun k => Rabs (k - k_slice_val)) (k_axis n1)))
  else if k_slice_dim =? 1 then
    mapM (fun r => py_get r (argmin (map (fun k => Rabs (k - k_slice_val)) (k_axis n2)))) mat
  else
    mapM (mapM (fun s => py_get s (argmin (map (fun k => Rabs (k - k_slice_val)) (k_axis n3))))) mat.

(** two_point.py:502-503 for one frequency *)
Definition gwk (g : list (list (list C))) (pi_shift : bool) : list (list (list C)) := if pi_shift then shift_xy_by_pi g None else g.

Section Contour.
Variable contour : list (list R) -> list (list (R * R)).

(** [plt.contour(x, y, z, levels=[0])]: z has to be at least 2 x 2 *)
Definition plt_contour (z : list (list R)) : res (list (list (R * R))) :=
  if (zlen z <? 2) || (dim1 z <? 2) then Raise TypeError else Ok (contour z).
(** brillouin_zone.py:51-66; the result has shape (0,) if it is empty, else (n, 2) *)
Definition find_zeros (mat : list (list C)) : res (list (Z * Z)) :=
  let! paths := plt_contour (map (map fst) (transpose (dim1 mat) mat)) in
  Ok (map (fun v => (py_int (fst v), py_int (snd v))) (concat paths)).
(** plotting.py:41-55; RuntimeError stands for UnboundLocalError *)
Definition get_zero_contour (data : list (list R)) : res (list Z * list Z) :=
  let! paths := plt_contour data in
  match paths with
  | [] => Raise RuntimeError
  | _ => Ok (map (fun v => np_round (fst v)) (concat paths), map (fun v => np_round (snd v)) (concat paths))
  end.
(** two_point.py:510-513 for the frequency that was found *)
Definition get_fs_surface_slice_indices (nk : zpoint) (g : list (list (list C))) (k_slice_dim : Z) (k_slice_val : R) (pi_shift : bool) : res (list Z * list Z) :=
  let! data := get_k_slice nk (map (map (map fst)) (gwk g pi_shift)) k_slice_dim k_slice_val in
  get_zero_contour data.

(** dga_io.py:223-249 on the root: [g] is the Green's function at kz = 0 and the lowest frequency.  The result: the momenta that are marked in the figure,
    if any, and the indices along which the self-energy is shown, if any.  An IndexError of plot_along_ind for an empty list is caught (245-249). *)
Definition default_giwk_checks (n1 n2 : Z) (g : list (list C)) : res (option (list (R * R)) * option (list (Z * Z))) :=
  let quadrant := map (fun r => slice r 0 (n2 / 2)) (slice g 0 (n1 / 2)) in
  let! fs_ind := find_zeros quadrant in
  let n_fs := zlen fs_ind in
  let half := slice fs_ind 0 (n_fs / 2) in
  let fs_points :=
    match fs_ind with
    | [] => None
    | _ => match (let! xs := take (k_axis n1) (map fst half) in let! ys := take (k_axis n2) (map snd half) in Ok (combine xs ys)) with
           | Ok l => Some l
           | Raise _ => None
           end
    end in
  Ok (fs_points, match half with [] => None | _ => Some half end).
End Contour.
