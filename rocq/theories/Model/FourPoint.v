(** Model of /repo/src/dga/four_point.py: the lattice Schwinger-Dyson equation (lines 24-121), the lattice Bethe-Salpeter
    routines (126-225) and the ladder vertex (281-294, 338-355), and the two routines of high_level_routines.py
    that call them (82-115).

    Numbers live in an arbitrary field F (exact arithmetic; complex128 in the code).  Arrays [q,w,v] are nested
    lists; since a numpy array with an empty leading axis still knows its last axis, the length of
    that axis is an argument ([nv]) where the code reads it.  Lattice arrays [kx,ky,kz,v] are functions from the mesh points to
    the list along v; the routines that return such an array are given for one k: whether they raise does not depend on k when all
    rows of giwk have the same length.  Broadcasting of operands of length one is not modelled. *)
From mathcomp Require Import all_ssreflect all_algebra.
From Coq Require Import String.
From Verif Require Import Base.PyBase Model.Matsubara Model.LocalFourPoint Model.LocalSDE Model.Bubble.
Set Implicit Arguments. Unset Strict Implicit. Unset Printing Implicit Defensive.
Import GRing.Theory.
Local Open Scope ring_scope.

Section SDE.
Variable F : fieldType.
Definition np_zeros (n : Z) : list F := List.repeat 0 (Z.to_nat n).
(** [s += t] for one-dimensional arrays *)
Definition iadd (s t : list F) : res (list F) := np_map2 (fun x y => x + y) s t.
(** a[i, j] *)
Definition py_get2 T (a : list (list T)) (i j : Z) : res T := let! r := py_get a i in py_get r j.
(** elementwise operations on two- and three-dimensional arrays *)
Definition np_map22 (f : F -> F -> F) (a b : list (list F)) : res (list (list F)) :=
  let! r := np_map2 (np_map2 f) a b in sequence r.
Definition np_map23 (f : F -> F -> F) (a b : list (list (list F))) : res (list (list (list F))) :=
  let! r := np_map2 (np_map22 f) a b in sequence r.

(** four_point.py:74-79 [get_kernel] *)
Definition get_kernel (vrg : list (list (list F))) (chi_phys : list (list F)) (u : F) (channel : string) : res (list (list (list F))) :=
  let! ur := get_ur u channel in
  let! r := np_map2 (fun cq vq => np_map2 (fun c row => List.map (fun g => ur / 2%:R * (1 - (1 - ur * c) * g)) row) cq vq) chi_phys vrg in
  sequence r.

(** four_point.py:82-90 [get_kernel_dc]; the second argument is [q,w,v], f.mat is [w,v,v']. *)
Definition get_kernel_dc (f : lnp F (list (list F))) (gchi0_core : list (list (list F))) : res (list (list (list F))) :=
  mapM (fun gq => mapM (fun iw_g =>
    let! ur := u_r f in
    let! fw := py_get (l_mat f) iw_g.1 in
    let! row := mapM (fun frow => let! t := np_map2 (fun x y => x * y) iw_g.2 frow in Ok (ur * lsum t)) fw in
    if Z.eqb (zlen row) (zlen iw_g.2) then Ok row else Raise ValueError) (enumerate gq)) gchi0_core.

Section Lattice.
Variables nx ny nz : nat.
Notation K := (mesh nx ny nz).
Notation lat := (K -> list F).

(** four_point.py:24-35 [schwinger_dyson_vrg_q] *)
Definition schwinger_dyson_vrg_q (nv : Z) (vrg : list (list (list F))) (chir_phys : list (list F)) (giwk : lat) (beta u : F) (channel : string)
    (q_list : list (Z * Z * Z)) (q_point_duplicity : list F) (wn : list Z) (nqtot : F) (k : K) : res (list F) :=
  let! ur := get_ur u channel in
  let niv_vrg := (nv / 2)%Z in
  let! sigma_f := foldM (fun s iq =>
      let gkpq := shift_mat_by_ind giwk (neg_ind iq.2) in
      foldM (fun s jw =>
          let gkpw := cut_iv_with_iw_shift_1d (gkpq k) niv_vrg jw.2 in
          let! c := py_get2 chir_phys iq.1 jw.1 in
          let! row := py_get2 vrg iq.1 jw.1 in
          let! d := py_get q_point_duplicity iq.1 in
          let! t := np_map2 (fun g x => (1 - (1 - ur * c) * g) * x * d) row gkpw in
          iadd s t) (enumerate wn) s) (enumerate q_list) (np_zeros (2 * niv_vrg)) in
  Ok (List.map (fun x => 1 / nqtot * ur / 2%:R * 1 / beta * x) sigma_f).

(** four_point.py:38-44 [schwinger_dyson_q_shell] (no duplicity enters) *)
Definition schwinger_dyson_q_shell (chir_phys : list (list F)) (giwk : lat) (beta u : F) (n_shell n_core : Z) (wn : list Z)
    (q_list : list (Z * Z * Z)) (nqtot : F) (k : K) : res (list F) :=
  foldM (fun s iq =>
      let gkpq := shift_mat_by_ind giwk (neg_ind iq.2) in
      let! grid := wn_slices_shell (gkpq k) n_shell n_core wn in
      let! cq := py_get chir_phys iq.1 in
      let! rows := np_map2 (fun c row => List.map (fun g => c * g) row) cq grid in
      iadd s (List.map (fun x => 1 / nqtot * u ^+ 2 / 2%:R * 1 / beta * x) (sum_axis0 (ncols rows) rows)))
    (enumerate q_list) (np_zeros (2 * n_shell)).

(** four_point.py:47-54 [schwinger_dyson_channel_q] *)
Definition schwinger_dyson_channel_q (nv : Z) (vrg : list (list (list F))) (chir_phys : list (list F)) (channel : string) (giwk : lat) (beta u : F)
    (q_list : list (Z * Z * Z)) (q_point_duplicity : list F) (wn : list Z) (nqtot : F) (niv_shell : Z) (k : K) : res (list F) :=
  let! siwk_core := schwinger_dyson_vrg_q nv vrg chir_phys giwk beta u channel q_list q_point_duplicity wn nqtot k in
  if (niv_shell =? 0)%Z then Ok siwk_core
  else
    let niv_core := (nv / 2)%Z in
    let! siwk_shell := schwinger_dyson_q_shell chir_phys giwk beta u niv_shell niv_core wn q_list nqtot k in
    Ok (concatenate_core_asmypt siwk_core siwk_shell).

(** four_point.py:93-102 [schwinger_dyson_kernel_q] *)
Definition schwinger_dyson_kernel_q (nv : Z) (kernel : list (list (list F))) (giwk : lat) (beta : F) (q_list : list (Z * Z * Z)) (wn : list Z)
    (nqtot : F) (k : K) : res (list F) :=
  let niv := (nv / 2)%Z in
  let! m := max_abs wn in
  let giwk := fun k => cut_v_1d (giwk k) (niv + m) in
  let! sigma_f := foldM (fun s iq =>
      let gkpq := shift_mat_by_ind giwk (neg_ind iq.2) in
      foldM (fun s jw =>
          let g := cut_iv_with_iw_shift_1d (gkpq k) niv jw.2 in
          let! row := py_get2 kernel iq.1 jw.1 in
          let! t := np_map2 (fun x y => x * y) row g in
          iadd s t) (enumerate wn) s) (enumerate q_list) (np_zeros (2 * niv)) in
  Ok (List.map (fun x => 1 / nqtot * 1 / beta * x) sigma_f).

(** four_point.py:57-71 [schwinger_dyson_full_q] *)
Definition schwinger_dyson_full_q (nv : Z) (vrg_dens vrg_magn : list (list (list F))) (chi_dens chi_magn : list (list F)) (kernel_dc : list (list (list F)))
    (giwk : lat) (beta u : F) (q_list : list (Z * Z * Z)) (wn : list Z) (nqtot : F) (niv_shell : Z) (k : K) : res (list F) :=
  let! kd := get_kernel vrg_dens chi_dens u "dens" in
  let! km := get_kernel vrg_magn chi_magn u "magn" in
  let! kernel := np_map23 (fun x y => x + 3%:R * y) kd km in
  let! kernel := np_map23 (fun x y => x - y) kernel kernel_dc in
  let! siwk_core := schwinger_dyson_kernel_q nv kernel giwk beta q_list wn nqtot k in
  if (niv_shell =? 0)%Z then Ok siwk_core
  else
    let niv_core := (zlen siwk_core / 2)%Z in
    let! s1 := schwinger_dyson_q_shell chi_dens giwk beta u niv_shell niv_core wn q_list nqtot k in
    let! s2 := schwinger_dyson_q_shell chi_magn giwk beta u niv_shell niv_core wn q_list nqtot k in
    let! siwk_shell := iadd s1 s2 in
    Ok (concatenate_core_asmypt siwk_core siwk_shell).

(** four_point.py:105-115 [schwinger_dyson_dc] *)
Definition schwinger_dyson_dc (nv : Z) (gchiq_fupdo : list (list (list F))) (giwk : lat) (u : F) (q_list : list (Z * Z * Z)) (q_point_duplicity : list F)
    (wn : list Z) (nqtot : F) (k : K) : res (list F) :=
  let niv_core := (nv / 2)%Z in
  foldM (fun s iq =>
      let gkpq := shift_mat_by_ind giwk (neg_ind iq.2) in
      let! grid := wn_slices_gen (gkpq k) niv_core wn in
      let! d := py_get q_point_duplicity iq.1 in
      let! rows := py_get gchiq_fupdo iq.1 in
      let! rows := np_map22 (fun x y => x * y) rows grid in
      iadd s (List.map (fun x => u * 1 / nqtot * d * x) (sum_axis0 (ncols rows) rows)))
    (enumerate q_list) (np_zeros (2 * niv_core)).
End Lattice.
End SDE.

Section BSE.
Variable F : fieldType.
(** [for iwn in range(nw): out[iq, iwn] = f(gchi0[iq, iwn], gammar.mat[iwn])] into zeros of the length of gammar.mat *)
Definition loop_w n (mat : list 'M[F]_n) (f : 'rV[F]_n -> 'M[F]_n -> res 'M[F]_n) (gq : list 'rV[F]_n) : res (list 'M[F]_n) :=
  let! r := mapM (fun iw_g => let! g := py_get mat iw_g.1 in f iw_g.2 g) (enumerate gq) in
  Ok (r ++ List.repeat 0 (length mat - length gq))%list.
(** four_point.py:126-139 [get_gchir_from_gamma_loc_q] *)
Definition get_gchir_from_gamma_loc_q n (gammar : lnp F 'M[F]_n) (gchi0_q : list (list 'rV[F]_n)) : res (list (list 'M[F]_n)) :=
  mapM (loop_w (l_mat gammar) (fun x0 g => np_inv (np_diag (rinv x0) + g))) gchi0_q.
(** four_point.py:142-153 [get_gchir_aux_from_gammar_q] *)
Definition get_gchir_aux_from_gammar_q n (gammar : lnp F 'M[F]_n) (gchi0 : list (list 'rV[F]_n)) : res (list (list 'M[F]_n)) :=
  mapM (loop_w (l_mat gammar) (fun x0 g =>
    let! ur := u_r gammar in np_inv (add_scalar (np_diag (rinv x0) + g) (- (ur / l_beta gammar ^+ 2))))) gchi0.
(** [1/beta**2 * np.sum(gchi, axis=(-1,-2))] and [1/beta**2 * np.sum(gchi0, axis=-1)] *)
Definition sum_vvp n (beta : F) (g : list (list 'M[F]_n)) : list (list F) := List.map (List.map (fun m : 'M[F]_n => 1 / beta ^+ 2 * \sum_i \sum_j m i j)) g.
Definition sum_v n (beta : F) (g : list (list 'rV[F]_n)) : list (list F) := List.map (List.map (fun v : 'rV[F]_n => 1 / beta ^+ 2 * \sum_i v 0 i)) g.
(** four_point.py:156-160 [chi_phys_from_chi_aux_q] *)
Definition chi_phys_from_chi_aux_q (chi_aux chi0q_urange chi0q_core : list (list F)) (u : F) (channel : string) : res (list (list F)) :=
  let! ur := get_ur u channel in
  let! s := np_map22 (fun x y => x + y) chi_aux chi0q_urange in
  let! s := np_map22 (fun x y => x - y) s chi0q_core in
  Ok (map22 (fun x => 1 / (1 / x + ur)) s).
(** four_point.py:163-165 [chi_phys_asympt_q] *)
Definition chi_phys_asympt_q (chir_urange chi0_urange chi0_asympt : list (list F)) : res (list (list F)) :=
  let! s := np_map22 (fun x y => x + y) chir_urange chi0_asympt in np_map22 (fun x y => x - y) s chi0_urange.
(** four_point.py:168-181 [vrg_from_gchi_aux_asympt] *)
Definition vrg_asympt_row n (ur : F) (x0 : 'rV[F]_n) (m : 'M[F]_n) (cu ca : F) : 'rV[F]_n :=
  \row_i (1 / x0 0 i * (\sum_j m i j) * (1 - ur * cu) / (1 - ur * ca)).
Definition vrg_from_gchi_aux_asympt_q n (gchir_aux : list (list 'M[F]_n)) (gchi0_core : list (list 'rV[F]_n)) (chir_urange chir_asympt : list (list F)) (u : F) (channel : string)
    : res (list (list 'rV[F]_n)) :=
  let! ur := get_ur u channel in
  mapM (fun iq => mapM (fun iw =>
    let! x0 := py_get2 gchi0_core iq.1 iw.1 in
    let! cu := py_get2 chir_urange iq.1 iw.1 in
    let! ca := py_get2 chir_asympt iq.1 iw.1 in
    Ok (vrg_asympt_row ur x0 iw.2 cu ca)) (enumerate iq.2)) (enumerate gchir_aux).
(** four_point.py:184-195 [vrg_from_gchi_aux] *)
Definition vrg_row n (x0 : 'rV[F]_n) (m : 'M[F]_n) : 'rV[F]_n := \row_i (1 / x0 0 i * (\sum_j m i j)).
Definition vrg_from_gchi_aux_q n (gchir_aux : list (list 'M[F]_n)) (gchi0_core : list (list 'rV[F]_n)) : res (list (list 'rV[F]_n)) :=
  mapM (fun iq => mapM (fun iw =>
    let! x0 := py_get2 gchi0_core iq.1 iw.1 in Ok (vrg_row x0 iw.2)) (enumerate iq.2)) (enumerate gchir_aux).

(** four_point.py:198-202 [lam_from_chir_q], 205-207 [get_lam_tilde], 210-214 [get_chir_shell], 217-219 [chir_tilde],
    222-225 [vrg_q_tilde]: elementwise in q and w, given for one (q,w). *)
Definition lam_from_chir_qw n (channel : string) (gchir : 'M[F]_n) (gchi0 : 'rV[F]_n) : res 'rV[F]_n :=
  let! sign := get_sign F channel in Ok (\row_i (- sign * (1 - \sum_j gchir i j * (1 / gchi0 0 i)))).
Definition get_lam_tilde_qw n (lam_core : 'rV[F]_n) (chi0q_shell u : F) (channel : string) : res 'rV[F]_n :=
  let! ur := get_ur u channel in Ok (\row_i ((lam_core 0 i - u * chi0q_shell) / (1 + ur * chi0q_shell))).
Definition get_chir_shell_qw n (lam_tilde : 'rV[F]_n) (chi0q_shell : F) (gchi0q_core : 'rV[F]_n) (beta u : F) (channel : string) : res F :=
  let! sign := get_sign F channel in
  Ok (- sign * u * chi0q_shell ^+ 2 + chi0q_shell * (1 - 2%:R * u * 1 / beta ^+ 2 * \sum_i (lam_tilde 0 i + sign) * gchi0q_core 0 i)).
Definition chir_tilde_qw n (chir_core : F) (lam_tilde : 'rV[F]_n) (chi0q_shell : F) (gchi0q_core : 'rV[F]_n) (beta u : F) (channel : string) : res F :=
  let! s := get_chir_shell_qw lam_tilde chi0q_shell gchi0q_core beta u channel in Ok ((chir_core + s) / (1 - (u * chi0q_shell) ^+ 2)).
Definition vrg_q_tilde_qw n (lam_tilde : 'rV[F]_n) (chir_q_tilde u : F) (channel : string) : res 'rV[F]_n :=
  let! ur := get_ur u channel in let! sign := get_sign F channel in Ok (\row_i ((1 + sign * lam_tilde 0 i) / (1 - ur * chir_q_tilde))).

(** high_level_routines.py:98-115 [construct_vrg_and_chi_q_urange] (the writes of lines 106-113 are modelled in Model/RankFiles.v) *)
Definition construct_vrg_and_chi_q_urange n (gamma_r : lnp F 'M[F]_n) (gchi0_q_core : list (list 'rV[F]_n)) (chi0_q_urange chi0_q_core : list (list F)) (beta u : F)
    : res (list (list 'rV[F]_n) * list (list F)) :=
  let! gchiq_aux := get_gchir_aux_from_gammar_q gamma_r gchi0_q_core in
  let chiq_aux := sum_vvp beta gchiq_aux in
  let! chi_lad_urange := chi_phys_from_chi_aux_q chiq_aux chi0_q_urange chi0_q_core u (l_channel gamma_r) in
  let! vrg_q := vrg_from_gchi_aux_q gchiq_aux gchi0_q_core in
  Ok (vrg_q, chi_lad_urange).

(** high_level_routines.py:82-96 [construct_dc_kernel]: the vertex F/beta^2 on the full box from
    local_four_point.py:318-327, then [get_kernel_dc], then the core part.  The local bubble is an argument. *)
Definition construct_dc_kernel nc ns (gamma_magn : lnp F 'M[F]_(nc.*2)) (gchi0_urange : list 'rV[F]_((nc + ns).*2)) (gchi0_q_urange : list (list (list F)))
    (niv_core : Z) : res (list (list (list F))) :=
  let! ur := u_r gamma_magn in
  let! f := per_wn (l_wn gamma_magn) (fun g x0 => fob2_from_gamob2_urange_w (l_beta gamma_magn) ur g x0) (l_mat gamma_magn) gchi0_urange in
  let! kernel := get_kernel_dc (with_mat gamma_magn (List.map (fun m : 'M[F]_((nc + ns).*2) => [seq [seq m i j | j <- enum 'I_((nc + ns).*2)] | i <- enum 'I_((nc + ns).*2)]) f)) gchi0_q_urange in
  Ok (List.map (List.map (fun row => cut_v_1d row niv_core)) kernel).

(** four_point.py:281-294 [ladder_vertex_from_chi_aux_components], one (q,w) *)
Definition ladder_f1 n (gchi_aux : 'M[F]_n) (gchi0 : 'rV[F]_n) (beta : F) : 'M[F]_n :=
  \matrix_(i, j) (beta ^+ 2 * 1 / gchi0 0 i * ((1%:M : 'M[F]_n) i j - gchi_aux i j * 1 / gchi0 0 j)).
Definition ladder_f2 n (vrg : 'rV[F]_n) (ur : F) : 'M[F]_n := \matrix_(i, j) (ur * vrg 0 i * vrg 0 j).
(** four_point.py:351 and 355 ([build_vertex_fq]), one (q,w) *)
Definition f_magn_qw n (f1 f2 : 'M[F]_n) (u chi : F) : 'M[F]_n := f1 + (1 + u * chi) *: f2.
Definition f_dens_qw n (f1 f2 : 'M[F]_n) (u chi : F) : 'M[F]_n := f1 + (1 - u * chi) *: f2.
End BSE.
