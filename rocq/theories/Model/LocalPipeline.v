(** Model of /repo/src/dga/high_level_routines.py:21-80 [local_sde_from_g2]: from the two-particle Green's function of the
    impurity to the irreducible vertices, susceptibilities, three-leg vertices and the local self-energy; and of the two
    variants with the asymptotic susceptibility that no run of the program reaches (local_four_point.py:431-456,
    four_point.py:228-277).

    Arrays [w][v][vp] are nested lists of complex numbers; the linear algebra at one w is Model/LocalFourPoint.v, so the
    rows are read into matrices ([l2mx], [l2rv]) and the three-leg vertex is written back ([rv_list]).  [nc] is
    gchi.niv and [ns] is box.niv_shell, with box.niv_full = nc + ns (config.py:175-176; the input is cut to niv_core
    before the call, dga_io).  Plots, files, logging and garbage collection (lines 26-28, 32-33, 41-51, 60-62, 69-79) are
    not modelled. *)
From mathcomp Require Import all_ssreflect all_algebra.
From mathcomp.real_closed Require Import complex.
From Coq Require Import String ZArith.
From Verif Require Import Base.PyBase Model.Matsubara Model.LocalFourPoint Model.LocalSDE Model.TwoPoint Model.Bubble.
Set Implicit Arguments. Unset Strict Implicit. Unset Printing Implicit Defensive.
Import GRing.Theory.
Local Open Scope ring_scope.
Local Open Scope complex_scope.

Section Pipe.
Variable R : rcfType.
Notation C := R[i].

(** the row / square array numpy hands to the linear algebra *)
Definition l2rv n (l : list C) : 'rV[C]_n := \row_i List.nth i l 0.
Definition l2mx n (l : list (list C)) : 'M[C]_n := \matrix_(i, j) List.nth j (List.nth i l nil) 0.
Definition rv_list n (v : 'rV[C]_n) : list C := [seq v 0 i | i <- enum 'I_n].

(** bubble.py:91-106: the generator built in line 36; is_full_wn=True asserts that wn is symmetric; the convention is 'minus' *)
Definition bubble_generator (wn : list Z) : res unit :=
  if (fix eqb (l m : list Z) := match l, m with nil, nil => true | x :: l, y :: m => Z.eqb x y && eqb l m | _, _ => false end) wn (List.map Z.opp (List.rev wn)) then Ok tt else Raise AssertionError.

(** local_four_point.py:465-470 [gamob2_from_gchir_urange] *)
Definition gamob2_from_gchir_urange nc ns (channel : string) (beta u : R) (wn : list Z) (gchir : list (list (list C))) (gchi0_urange : list (list C))
    : res (list 'M[C]_(nc.*2)) :=
  let! ur := get_ur u%:C channel in
  per_wn wn (fun g x => gamob2_from_gchir_urange_wn beta%:C ur (l2mx (nc.*2) g) (l2rv ((nc + ns).*2) x)) gchir gchi0_urange.

(** local_four_point.py:366-389 [get_vrg_and_chir_tilde_from_gammar_urange] for all w; lines 375-377 ask the generator for
    the bubbles *)
Definition get_vrg_and_chir_urange nc ns (channel : string) (beta u : R) (wn : list Z) (gamma : list 'M[C]_(nc.*2)) (g_loc : list C)
    : res (list 'rV[C]_(nc.*2) * list C) :=
  let! ur := get_ur u%:C channel in
  let! chi0_core := vec_get_chi0_sum g_loc beta (Z.of_nat nc) wn "minus" true in
  let! chi0_urange := vec_get_chi0_sum g_loc beta (Z.of_nat nc + Z.of_nat ns) wn "minus" true in
  let! gchi0_core := vec_get_gchi0 g_loc beta (Z.of_nat nc) wn "minus" true in
  let! r := mapM (fun i => let! gam := py_get gamma i in let! cc := py_get chi0_core i in let! cu := py_get chi0_urange i in let! x := py_get gchi0_core i in
                    get_vrg_and_chir_urange_w beta%:C ur gam cc cu (l2rv (nc.*2) x) true) (range (zlen wn)) in
  Ok (List.map fst r, List.map snd r).

Record local_result nc := LocalResult {
  lr_gamma_dens : list 'M[C]_(nc.*2); lr_gamma_magn : list 'M[C]_(nc.*2);
  lr_chi_dens : list C; lr_chi_magn : list C;
  lr_vrg_dens : list 'rV[C]_(nc.*2); lr_vrg_magn : list 'rV[C]_(nc.*2);
  lr_siw : list C }.

(** high_level_routines.py:21-80 *)
Definition local_sde_from_g2 nc ns (g2_dens g2_magn : list (list (list C))) (g_loc : list C) (beta u n : R) (wn : list Z) : res (local_result nc) :=
  let! gchi_dens := gchir_from_g2 "dens" beta%:C wn g2_dens g_loc in
  let! gchi_magn := gchir_from_g2 "magn" beta%:C wn g2_magn g_loc in
  let! _ := bubble_generator wn in
  let! gchi0_urange := vec_get_gchi0 g_loc beta (Z.of_nat nc + Z.of_nat ns) wn "minus" true in
  let! gamma_dens := @gamob2_from_gchir_urange nc ns "dens" beta u wn gchi_dens gchi0_urange in
  let! gamma_magn := @gamob2_from_gchir_urange nc ns "magn" beta u wn gchi_magn gchi0_urange in
  let! d := @get_vrg_and_chir_urange nc ns "dens" beta u wn gamma_dens g_loc in
  let! m := @get_vrg_and_chir_urange nc ns "magn" beta u wn gamma_magn g_loc in
  let! siw := schwinger_dyson_full beta%:C u%:C wn (List.map (@rv_list _) d.1) (List.map (@rv_list _) m.1) d.2 m.2 g_loc n%:C (Z.of_nat ns) in
  Ok (LocalResult gamma_dens gamma_magn d.2 m.2 d.1 m.1 siw).

(** A Python number used where numpy wants an axis of a three-dimensional array: np.sum(mat, axis=...). *)
Inductive pynum := PyInt (z : Z) | PyFloat (x : R).
Inductive axis3 := AxW | AxV | AxVp.
Definition np_axis3 (a : pynum) : res axis3 :=
  match a with
  | PyFloat _ => Raise TypeError
  | PyInt z => if ((z =? 0) || (z =? -3))%Z then Ok AxW else if ((z =? 1) || (z =? -2))%Z then Ok AxV else if ((z =? 2) || (z =? -1))%Z then Ok AxVp
               else Raise ValueError (* numpy.AxisError is a ValueError *)
  end.
(** local_four_point.py:431-456 [get_vrg_and_chir_tilde_from_chir_uasympt] up to the sum of line 548; the last call (line 454)
    passes u in the place of sum_axis.  The result says along which axis the auxiliary susceptibility is summed. *)
Definition chir_uasympt_axis nc (channel : string) (beta : R) (u_obj : C) (u_arg : pynum) (wn : list Z) (chir : list 'M[C]_(nc.*2)) : res axis3 :=
  let! ur := get_ur u_obj channel in
  let! gchi_aux := mapM (fun i => let! x := py_get chir i in gchi_aux_core_w beta%:C ur x) (range (zlen wn)) in
  np_axis3 u_arg.
(** four_point.py:228-277 [get_vrg_and_chir_lad_from_gammar_uasympt_q], line 256: get_kernel_dc (four_point.py:97-102) reads the
    attributes mat and u_r of its first argument, but is given the array f_dc.mat *)
Inductive pyobj (T : Type) := Lfp (mat : T) (ur : C) | Ndarray (mat : T).
Definition get_attr_mat T (o : pyobj T) : res T := match o with Lfp m _ => Ok m | Ndarray _ => Raise AttributeError end.
Definition get_attr_ur T (o : pyobj T) : res C := match o with Lfp _ ur => Ok ur | Ndarray _ => Raise AttributeError end.
Definition get_kernel_dc n (f : pyobj (list 'M[C]_n)) (gchi0 : list (list 'rV[C]_n)) : res (list (list 'rV[C]_n)) :=
  mapM (fun gq => mapM (fun i => let! g := py_get (gq : list 'rV[C]_n) i in let! ur := get_attr_ur f in let! m := get_attr_mat f in let! fm := py_get m i in
                          Ok (\row_v (ur * \sum_v' g 0 v' * (fm : 'M[C]_n) v v') : 'rV[C]_n)) (range (zlen gq))) gchi0.
Definition uasympt_q_kernel_dc n (f_dc_mat : list 'M[C]_n) (gchi0_q_urange : list (list 'rV[C]_n)) : res (list (list 'rV[C]_n)) :=
  get_kernel_dc (Ndarray f_dc_mat) gchi0_q_urange.
End Pipe.
