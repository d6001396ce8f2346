(** Model of /repo/src/dga/brillouin_zone.py (lines 42-48, 89-351, 530-544; the k-path is in KPath.v).

    A mesh [kx,ky,kz,...] is a triply nested list whose entries are of arbitrary type (trailing axes).
    In-place updates return the new array.  Source and target of the slice assignments never overlap
    (source rows end at n/2, target rows start at n/2+1), so reading before writing is faithful. *)
From Coq Require Import String.
From Verif Require Import Base.PyBase.
Set Implicit Arguments.
Local Open Scope string_scope.
Local Open Scope Z_scope.

(** brillouin_zone.py:9 *)
Definition KNOWN_SYMMETRIES : list string := ["x-inv"; "y-inv"; "z-inv"; "x-y-sym"; "x-y-inv"].

(** brillouin_zone.py:69-86: the predefined symmetry lists. *)
Definition two_dimensional_square_symmetries := ["x-inv"; "y-inv"; "x-y-sym"].
Definition two_dimensional_nematic_symmetries := ["x-inv"; "y-inv"].
Definition quasi_two_dimensional_square_symmetries := ["x-inv"; "y-inv"; "z-inv"; "x-y-sym"].
Definition quasi_one_dimensional_square_symmetries := ["x-inv"; "y-inv"].
Definition simultaneous_x_y_inversion := ["x-y-inv"].

(** brillouin_zone.py:95-99: [mat[len_ax+1:] = mat[1:len_ax+mod_2][::-1]] along one axis. *)
Definition inv_axis {A} (l : list A) : res (list A) :=
  let n := zlen l in
  let len_ax := n / 2 in
  let mod_2 := n mod 2 in
  assign_slice l (len_ax + 1) n (rev (slice l 1 (len_ax + mod_2))).

(** brillouin_zone.py:89-99 [inv_sym]. *)
Definition inv_sym {A} (mat : list (list (list A))) (axis : Z) : res (list (list (list A))) :=
  if axis =? 0 then inv_axis mat
  else if axis =? 1 then mapM inv_axis mat
  else if axis =? 2 then mapM (mapM inv_axis) mat
  else Raise AssertionError.

(** mat.shape[1] of a non-empty nested list *)
Definition dim1 {A} (m : list (list A)) : Z := match m with r :: _ => zlen r | [] => 0 end.

(** brillouin_zone.py:102-108 [x_y_sym]; the warning is not modelled. *)
Definition x_y_sym (mat : list (list (list Z))) : res (list (list (list Z))) :=
  if zlen mat =? dim1 mat
  then Ok (map2 (map2 (map2 Z.min)) mat (transpose (zlen mat) mat))
  else Ok mat.

(** brillouin_zone.py:111-116 [x_y_inv]. *)
Definition x_y_inv {A} (mat : list (list (list A))) : res (list (list (list A))) :=
  let n := zlen mat in
  let len_ax_x := n / 2 in
  let mod_2_x := n mod 2 in
  let target := slice mat (len_ax_x + 1) n in
  let source := rev (slice mat 1 (len_ax_x + mod_2_x)) in
  if zlen target =? zlen source then
    let! rows := mapM (fun ts => assign_slice (fst ts) 1 (zlen (fst ts)) (rev (slice (snd ts) 1 (zlen (snd ts))))) (combine target source) in
    assign_slice mat (len_ax_x + 1) n rows
  else Raise ValueError.

(** brillouin_zone.py:119-126 [apply_symmetry]. *)
Definition apply_symmetry (mat : list (list (list Z))) (sym : string) : res (list (list (list Z))) :=
  if negb (existsb (String.eqb sym) KNOWN_SYMMETRIES) then Raise AssertionError
  else if String.eqb sym "x-inv" then inv_sym mat 0
  else if String.eqb sym "y-inv" then inv_sym mat 1
  else if String.eqb sym "z-inv" then inv_sym mat 2
  else if String.eqb sym "x-y-sym" then x_y_sym mat
  else x_y_inv mat.

(** brillouin_zone.py:129-135 [apply_symmetries]. *)
Definition apply_symmetries (mat : list (list (list Z))) (symmetries : list string) : res (list (list (list Z))) :=
  foldM apply_symmetry symmetries mat.

(** [np.reshape] between [k] and [kx,ky,kz] in C order. *)
Definition flatten3 {A} (m : list (list (list A))) : list A := concat (map (@concat A) m).
Definition reshape3 {A} (nx ny nz : Z) (l : list A) : res (list (list (list A))) :=
  if zlen l =? nx * ny * nz
  then Ok (map (fun x => map (fun y => slice l ((x * ny + y) * nz) ((x * ny + y) * nz + nz)) (range ny)) (range nx))
  else Raise ValueError.

(** brillouin_zone.py:162-169 [KGrid.set_fbz2irrk], [set_irrk_maps]: index maps of a grid. *)
Record kgrid := { nkx : Z; nky : Z; nkz : Z; fbz2irrk : list (list (list Z));
                  irrk_ind : list Z; irrk_inv : list Z; irrk_count : list Z }.
Definition make_kgrid (nx ny nz : Z) (symmetries : list string) : res kgrid :=
  let! m0 := reshape3 nx ny nz (arange 0 (nx * ny * nz)) in
  let! m := apply_symmetries m0 symmetries in
  let u := np_unique (flatten3 m) in
  Ok {| nkx := nx; nky := ny; nkz := nz; fbz2irrk := m;
        irrk_ind := uq_index u; irrk_inv := uq_inverse u; irrk_count := uq_counts u |}.

(** brillouin_zone.py:190-196 *)
Definition nk_tot (g : kgrid) : Z := nkx g * nky g * nkz g.
Definition nk_irr (g : kgrid) : Z := zlen (irrk_ind g).

(** brillouin_zone.py:248-256 [map_irrk2fbz], shapes 'mesh' and 'list'. *)
Definition map_irrk2fbz_list {A} (g : kgrid) (mat : list A) : res (list A) := take mat (irrk_inv g).
Definition map_irrk2fbz {A} (g : kgrid) (mat : list A) : res (list (list (list A))) :=
  let! l := take mat (irrk_inv g) in reshape3 (nkx g) (nky g) (nkz g) l.

(** brillouin_zone.py:277-287 [map_fbz2irrk], shapes 'mesh' and 'list'. *)
Definition map_fbz2irrk {A} (g : kgrid) (mat : list (list (list A))) : res (list A) := take (flatten3 mat) (irrk_ind g).
Definition map_fbz2irrk_list {A} (g : kgrid) (mat : list A) : res (list A) := take mat (irrk_ind g).

(** brillouin_zone.py:258-264 [get_q_list], [get_irrq_list]: kmesh_ind flattened (C order). *)
Definition kmesh_ind_list (nx ny nz : Z) : list (Z * Z * Z) :=
  flat_map (fun x => flat_map (fun y => map (fun z => (x, y, z)) (range nz)) (range ny)) (range nx).
Definition get_q_list (g : kgrid) : list (Z * Z * Z) := kmesh_ind_list (nkx g) (nky g) (nkz g).
Definition get_irrq_list (g : kgrid) : res (list (Z * Z * Z)) := take (get_q_list g) (irrk_ind g).

(** brillouin_zone.py:266-275 [k_mean].  Entries live in an additive monoid; [scale n] multiplies by 1/n, and the
    product with an integer count is repeated addition. *)
Section KMean.
Context {A : Type} (zero : A) (add : A -> A -> A) (scale : Z -> A -> A).
Definition gsum (l : list A) : A := fold_right add zero l.
Fixpoint nmul (n : nat) (a : A) : A := match n with O => zero | S n' => add a (nmul n' a) end.
Definition k_mean_mesh (g : kgrid) (mat : list (list (list A))) : A := scale (nk_tot g) (gsum (flatten3 mat)).
Definition k_mean_list (g : kgrid) (mat : list A) : A := scale (nk_tot g) (gsum mat).
Definition k_mean_irrk (g : kgrid) (mat : list A) : res A :=
  if zlen mat =? zlen (irrk_count g)
  then Ok (scale (nk_tot g) (gsum (map2 (fun a c => nmul (Z.to_nat c) a) mat (irrk_count g))))
  else Raise ValueError.
End KMean.

(** brillouin_zone.py:297-304 [symmetrize_irrk].  [mat_reshape] has shape [nk_tot, rest]; the boolean mask
    [fbz2irrk == irrk_ind[i]] has shape [nkx,nky,nkz].  numpy's boolean indexing requires the shape of the mask to
    match the leading axes of the indexed array and otherwise raises IndexError; [ndim] 2 of mat_reshape can never
    match the three mask axes.  The loop body runs nk_irr times, so it raises whenever nk_irr > 0. *)
Definition bool_mask_index (arr_shape mask_shape : list Z) : res unit :=
  if (zlen mask_shape <=? zlen arr_shape) &&
     forallb (fun ab => fst ab =? snd ab) (combine mask_shape arr_shape)
  then Ok tt else Raise IndexError.
Definition symmetrize_irrk_step (g : kgrid) (rest : Z) : res unit :=
  bool_mask_index [nk_tot g; rest] [nkx g; nky g; nkz g].
Definition symmetrize_irrk (g : kgrid) (rest : Z) : res unit :=
  foldM (fun _ _ => symmetrize_irrk_step g rest) (irrk_ind g) tt.

(** brillouin_zone.py:318-320 and 542-544 [shift_mat_by_ind]: np.roll over the first three axes. *)
Definition shift_mat_by_ind {A} (mat : list (list (list A))) (qx qy qz : Z) : list (list (list A)) :=
  map (fun r => map (fun s => roll s qz) (roll r qy)) (roll mat qx).

(** brillouin_zone.py:306-311 [KGrid.shift_mat_by_pi] with the default axes, and 42-48 (two axes). *)
Definition shift_mat_by_pi {A} (mat : list (list (list A))) : list (list (list A)) :=
  let mat := roll mat (zlen mat / 2) in
  let mat := map (fun r => roll r (zlen r / 2)) mat in
  map (map (fun s => roll s (zlen s / 2))) mat.
Definition shift_mat_by_pi_2d {A} (mat : list (list A)) : list (list A) :=
  let n1 := dim1 mat in
  let mat := roll mat (zlen mat / 2) in
  map (fun r => roll r (n1 / 2)) mat.

(** brillouin_zone.py:530-539 [get_bz_masks]: entry (i,j) of the four masks. *)
Definition mask_fill (nk : Z) (zero_at : Z -> Z -> bool) : list (list Z) :=
  map (fun i => map (fun j => if zero_at i j then 0 else 1) (range nk)) (range nk).
Definition get_bz_masks (nk : Z) : list (list (list Z)) :=
  let h := nk / 2 in
  [ mask_fill nk (fun i j => (h <=? i) && (j <? h));
    mask_fill nk (fun i j => (h <=? i) && (h <=? j));
    mask_fill nk (fun i j => (i <? h) && (j <? h));
    mask_fill nk (fun i j => (i <? h) && (h <=? j)) ].
