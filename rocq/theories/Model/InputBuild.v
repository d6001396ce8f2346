(** Model of the one-particle input and of the construction of the two-particle Green's function objects:
    W2dynFile of /repo/src/dga/w2dyn_aux_dga.py and dga_io.py lines 33-128.  Arrays are nested lists over an arbitrary
    field F (complex128 in the code). *)
From mathcomp Require Import all_ssreflect all_algebra.
From Coq Require Import String.
From Verif Require Import Base.PyBase Model.Matsubara Model.LocalFourPoint Model.LocalSDE Model.Config.
Set Implicit Arguments. Unset Strict Implicit. Unset Printing Implicit Defensive.
Import GRing.Theory.
Local Open Scope ring_scope.

Section Model.
Variable F : fieldType.
Notation arr1 := (list F).
Notation arr2 := (list (list F)).
Notation arr3 := (list (list (list F))).
(** The datasets and attributes of a w2dynamics file used below (w2dyn_aux_dga.py:51-190), for the default iteration
    and atom; [None] for a missing dataset.  giw, siw: [band,spin,v]; giw-full, siw-full and occ: [band,spin,band,spin]
    (and v); p2iw-worm/00001 and 00002: [w]. *)
Record w2dyn := W2dyn { w_beta : F; w_udd : F; w_mu : F; w_totdens : F; w_giw : option arr3; w_siw : option arr3;
  w_giw_full : option (list (list arr3)); w_siw_full : option (list (list arr3)); w_occ : option (list (list arr2)); w_p2_upup : option arr1; w_p2_updn : option arr1 }.
Definition dataset T (o : option T) : res T := match o with Some x => Ok x | None => Raise KeyError end.

(** dga_io.py:87-88: np.mean(x[0,:,:], axis=0) *)
Definition mean0 (rows : arr2) : arr1 := List.map (fun j => lsum (col j rows) / (length rows)%:R) (range (ncols rows)).
(** dga_io.py:91: np.sum(np.diag(occ[0,:,0,:])) *)
Definition occ_sum (occ : list (list arr2)) : res F :=
  let! o0 := py_get occ 0 in
  let! rows := mapM (fun sp => py_get sp 0%Z) o0 in
  let! d := mapM (fun s => let! r := py_get rows s in py_get r s) (range (Z.min (zlen rows) (ncols rows))) in
  Ok (lsum d).

(** The dictionary of dga_io.py (the keys giw, siw, n, beta, u, mu_dmft, g4iw_dens, g4iw_magn). *)
Record ddict := DDict { d_giw : arr1; d_siw : arr1; d_n : F; d_beta : F; d_u : F; d_mu : F; d_dens : option arr3; d_magn : option arr3 }.

(** dga_io.py:81-106 [load_1p_data_w2dyn]; [g4] is the result of read_g2_full for the two channels (InputFiles.v), [None]
    when no file name is given. *)
Definition load_1p_data_w2dyn (f : w2dyn) (g4 : option (res arr3 * res arr3)) : res ddict :=
  let! g := dataset (w_giw f) in let! g0 := py_get g 0 in
  let! s := dataset (w_siw f) in let! s0 := py_get s 0 in
  let! n := (if w_totdens f == 0 then let! o := dataset (w_occ f) in occ_sum o else Ok (w_totdens f)) in
  let base := DDict (mean0 g0) (mean0 s0) n (w_beta f) (w_udd f) (w_mu f) in
  match g4 with
  | None => Ok (base None None)
  | Some (rd, rm) => let! d := rd in let! m := rm in Ok (base (Some d) (Some m))
  end.

(** w2dyn_aux_dga.py:189-217 [load_dmft1p_w2dyn]: half the sum over all axes but the last; any exception of the full
    arrays selects the diagonal ones. *)
Definition sum4 (x : list (list arr3)) : arr1 := let rows := List.concat (List.concat (List.concat x)) in sum_axis0 (ncols rows) rows.
Definition sum2 (x : arr3) : arr1 := let rows := List.concat x in sum_axis0 (ncols rows) rows.
Definition half (l : arr1) : arr1 := List.map (fun x => 1 / 2%:R * x) l.
Definition loc_of (full : option (list (list arr3))) (diag : option arr3) : res arr1 :=
  match full with
  | Some x => Ok (half (sum4 x))
  | None => let! x := dataset diag in Ok (half (sum2 x))
  end.
Record dmft1p := Dmft1p { p_beta : F; p_u : F; p_mu : F; p_n : F; p_niv : Z; p_gloc : arr1; p_sloc : arr1; p_hartree : F }.
Definition load_dmft1p_w2dyn (f : w2dyn) : res dmft1p :=
  let! g := loc_of (w_giw_full f) (w_giw f) in
  let! s := loc_of (w_siw_full f) (w_siw f) in
  Ok (Dmft1p (w_beta f) (w_udd f) (w_mu f) (w_totdens f) (zlen s / 2)%Z g s (w_totdens f * w_udd f / 2%:R)).

(** w2dyn_aux_dga.py:169-185 [get_chi]; the boolean index [wn == 0] must have the length of the array. *)
Definition get_chi (f : w2dyn) (channel : string) : res arr1 :=
  let! uu := dataset (w_p2_upup f) in
  let! ud := dataset (w_p2_updn f) in
  if String.eqb channel "dens" then
    let niw := (zlen uu / 2)%Z in
    let wn := arange (- niw) (niw + 1) in
    let! chi := np_map2 +%R uu ud in
    if (zlen wn =? zlen chi)%Z then
      Ok (map2 (fun w x => if (w =? 0)%Z then x - (w_totdens f / 2%:R - 1) ^+ 2 * w_beta f * 2%:R else x) wn chi)
    else Raise IndexError
  else if String.eqb channel "magn" then np_map2 (fun a b => a - b) uu ud
  else Raise ValueError.

(** dga_io.py:109-128 [build_g2_obj] with local_four_point.py:158-178, 204-206: the arrays must have three axes (an array
    built from no matrices has one); the box is completed from the density vertex; both are cut and, if requested,
    symmetrised.  A missing key is a KeyError. *)
Definition lfp_init (m : option arr3) : res arr3 :=
  match m with None => Raise KeyError | Some [::] => Raise AssertionError | Some m => Ok m end.
Definition cut_iv (m : arr3) (n : Z) : arr3 := List.map (fun x => cut_v_2 x n) m.
Definition sym3 (m : arr3) : res arr3 := mapM (fun x => symmetrize_v_vp (ncols x) x) m.
Definition len_wn (m : arr3) : Z := zlen (wn (niw_from_len (zlen m) false) 0 false).
Definition build_g2_obj (b : box) (do_sym : bool) (d : ddict) : res (box * arr3 * arr3) :=
  let! gd := lfp_init (d_dens d) in
  let! gm := lfp_init (d_magn d) in
  let! b' := set_from_lfp b (niv3 gd) (len_wn gd) in
  let gd := cut_w_1d (cut_iv gd (niv_core b')) (niw_core b') in
  let gm := cut_w_1d (cut_iv gm (niv_core b')) (niw_core b') in
  if do_sym then let! gd := sym3 gd in let! gm := sym3 gm in Ok (b', gd, gm) else Ok (b', gd, gm).

(** dga_io.py:33-44 [create_dmft_ddict]. *)
Definition create_dmft_ddict (d : ddict) (gd gm : arr3) : ddict :=
  DDict (d_giw d) (d_siw d) (d_n d) (d_beta d) (d_u d) (d_mu d) (Some gd) (Some gm).

(** dga_io.py:47-57 [load_1p_data]: the readers of the known formats are given; 'test' and 'default' load a saved
    dictionary. *)
Definition load_1p_data (input_type : string) (ed w2dyn_ saved : res ddict) : res ddict :=
  if String.eqb input_type "EDFermion" then ed
  else if String.eqb input_type "w2dyn" then w2dyn_
  else if String.eqb input_type "test" then saved
  else if String.eqb input_type "default" then saved
  else Raise NotImplementedError.
End Model.
