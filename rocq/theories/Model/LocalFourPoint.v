(** Model of /repo/src/dga/local_four_point.py (the routines of lines 13-33, 152-155, 225-603).

    Numbers live in an arbitrary field F (exact arithmetic; complex128 in the code).  At one transferred frequency a
    four-point object is an n x n mathcomp matrix, a three-point object or bubble a row vector.  Where the code has
    a list comprehension over [wn_lin] the model has [per_wn]; where it uses numpy broadcasting over the w axis the model
    gives the function for one w (it acts on every w separately), and [np_map2] along w.
    Division x/y is the field division (numpy's 1/0 = inf is outside the model: theorems assume non-zero
    denominators). *)
From mathcomp Require Import all_ssreflect all_algebra.
From Coq Require Import String.
From Verif Require Import Base.PyBase.
Set Implicit Arguments. Unset Strict Implicit. Unset Printing Implicit Defensive.
Import GRing.Theory.
Local Open Scope ring_scope.

Section Model.
Variable F : fieldType.

(** local_four_point.py:13-24 [get_ur]. *)
Definition get_ur (u : F) (channel : string) : res F :=
  if String.eqb channel "magn" then Ok (u * - 1)
  else if String.eqb channel "dens" then Ok (u * 1)
  else if String.eqb channel "updo" then Ok (u * 1)
  else if String.eqb channel "upup" then Ok (u * - 1)
  else Raise ValueError.

(** local_four_point.py:27-33 [get_sign]. *)
Definition get_sign (channel : string) : res F :=
  if String.eqb channel "magn" then Ok (- 1)
  else if String.eqb channel "dens" then Ok 1
  else Raise ValueError.

(** np.linalg.inv: LinAlgError on a singular matrix. *)
Definition np_inv n (A : 'M[F]_n) : res 'M[F]_n := if A \in unitmx then Ok (invmx A) else Raise LinAlgError.
(** 1 / v and np.diag(v) for a vector *)
Definition rinv n (v : 'rV[F]_n) : 'rV[F]_n := map_mx (fun x => 1 / x) v.
Definition np_diag n (v : 'rV[F]_n) : 'M[F]_n := diag_mx v.
(** adding a scalar to an array adds it to every entry *)
Definition add_scalar n (A : 'M[F]_n) (c : F) : 'M[F]_n := A + const_mx c.

(** The fields of LocalNPoint (lines 91-112) used below; [wn] is always stored (is_full_w only changes how it is
    obtained); the assertion of line 96 is vacuous in the code (np.size of an int is 1). *)
Record lnp (T : Type) := Lnp { l_channel : string; l_beta : F; l_u : F; l_wn : list Z; l_mat : list T }.
Definition with_mat T S (x : lnp T) (m : list S) : lnp S := Lnp (l_channel x) (l_beta x) (l_u x) (l_wn x) m.
Definition u_r T (x : lnp T) : res F := get_ur (l_u x) (l_channel x).

(** [np.array([f(a[i], b[i]) for i in wn_lin])] *)
Definition per_wn A B C (wn : list Z) (f : A -> B -> res C) (la : list A) (lb : list B) : res (list C) :=
  mapM (fun i => let! a := py_get la i in let! b := py_get lb i in f a b) (range (zlen wn)).

(** lines 152-155 [contract_legs]: n = 2 for a four-point, n = 1 for a three-point object. *)
Definition contract_legs_4 n (beta : F) (m : 'M[F]_n) : F := 1 / beta ^+ 2 * \sum_i \sum_j m i j.
Definition contract_legs_3 n (beta : F) (v : 'rV[F]_n) : F := 1 / beta ^+ 1 * \sum_i v 0 i.

(** lines 260-267 [fob2_from_gchir], one w. *)
Definition fob2_from_gchir_w n (gchir : 'M[F]_n) (gchi0 : 'rV[F]_n) : 'M[F]_n :=
  np_diag (rinv gchi0) - \matrix_(i, j) (1 / gchi0 0 i * gchir i j * 1 / gchi0 0 j).
(** lines 270-277 [gchir_from_fob2], one w. *)
Definition gchir_from_fob2_w n (fob2 : 'M[F]_n) (gchi0 : 'rV[F]_n) : 'M[F]_n :=
  np_diag gchi0 - \matrix_(i, j) (gchi0 0 i * fob2 i j * gchi0 0 j).
Definition fob2_from_gchir n (g : lnp 'M[F]_n) (gchi0 : list 'rV[F]_n) : res (lnp 'M[F]_n) :=
  let! m := np_map2 (@fob2_from_gchir_w n) (l_mat g) gchi0 in Ok (with_mat g m).
Definition gchir_from_fob2 n (g : lnp 'M[F]_n) (gchi0 : list 'rV[F]_n) : res (lnp 'M[F]_n) :=
  let! m := np_map2 (@gchir_from_fob2_w n) (l_mat g) gchi0 in Ok (with_mat g m).

(** lines 280-288 [fob2_from_vrg_and_chir], one w (the two assertions compare channels and shapes). *)
Definition fob2_from_vrg_and_chir_w n (beta ur : F) (gchi_aux : 'M[F]_n) (vrg_v vrg_vp : 'rV[F]_n) (chir : F) (gchi0 : 'rV[F]_n) : 'M[F]_n :=
  let f_1 := \matrix_(i, j) (beta ^+ 2 * 1 / gchi0 0 i * ((1%:M : 'M[F]_n) i j - gchi_aux i j * 1 / gchi0 0 j)) in
  let f_2 := \matrix_(i, j) (ur * (1 - ur * chir) * vrg_v 0 i * vrg_vp 0 j) in
  (1 / beta ^+ 2) *: (f_1 + f_2).

(** lines 297-299 [gamob2_from_gchir_wn] and 291-294 [gamob2_from_gchir]. *)
Definition gamob2_from_gchir_wn n (chir : 'M[F]_n) (gchi0 : 'rV[F]_n) : res 'M[F]_n :=
  let! i := np_inv chir in Ok (- (np_diag (rinv gchi0) - i)).
Definition gamob2_from_gchir n (g : lnp 'M[F]_n) (gchi0 : list 'rV[F]_n) : res (lnp 'M[F]_n) :=
  let! m := per_wn (l_wn g) (@gamob2_from_gchir_wn n) (l_mat g) gchi0 in Ok (with_mat g m).

(** lines 308-309 [gchir_from_gamob2_wn] and 302-305 [gchir_from_gamob2]. *)
Definition gchir_from_gamob2_wn n (gammar : 'M[F]_n) (gchi0 : 'rV[F]_n) : res 'M[F]_n :=
  np_inv (np_diag (rinv gchi0) + gammar).
Definition gchir_from_gamob2 n (g : lnp 'M[F]_n) (gchi0 : list 'rV[F]_n) : res (lnp 'M[F]_n) :=
  let! m := per_wn (l_wn g) (@gchir_from_gamob2_wn n) (l_mat g) gchi0 in Ok (with_mat g m).

(** matsubara_frequencies.py:44-53 and 150-159 on matrices: the list versions are in Model/Matsubara.v, and
    Proofs/LocalFourPointP.v proves that these two agree with them. *)
Definition core_idx nc ns (i : 'I_((nc + ns).*2)) : option 'I_(nc.*2) :=
  if (ns <= i)%nat then insub (i - ns)%nat else None.
Lemma core_ord_subproof nc ns (i : 'I_(nc.*2)) : (i + ns < (nc + ns).*2)%nat.
Proof. by rewrite doubleD -(addnn ns) addnA ltn_addr // ltn_add2r ltn_ord. Qed.
Definition core_ord nc ns (i : 'I_(nc.*2)) : 'I_((nc + ns).*2) := Ordinal (core_ord_subproof ns i).
Definition append_v_vp_shell_mx nc ns (m : 'M[F]_(nc.*2)) (val : F) : 'M[F]_((nc + ns).*2) :=
  \matrix_(i, j) match core_idx i, core_idx j with Some a, Some b => m a b | _, _ => val end.
Definition cut_v_mx nc ns (m : 'M[F]_((nc + ns).*2)) : 'M[F]_(nc.*2) := \matrix_(i, j) m (core_ord ns i) (core_ord ns j).
Definition cut_v_rv nc ns (v : 'rV[F]_((nc + ns).*2)) : 'rV[F]_(nc.*2) := \row_i v 0 (core_ord ns i).

(** lines 318-327 [fob2_from_gamob2_urange], one w; the docstring's minus sign is a plus in the code. *)
Definition fob2_from_gamob2_urange_w nc ns (beta ur : F) (gammar : 'M[F]_(nc.*2)) (gchi0 : 'rV[F]_((nc + ns).*2)) : res 'M[F]_((nc + ns).*2) :=
  let gamma_urange := append_v_vp_shell_mx ns gammar (ur / beta ^+ 2) in
  let! i := np_inv (1%:M + \matrix_(i, j) (gamma_urange i j * gchi0 0 i)) in Ok (gamma_urange *m i).

(** lines 330-334 [lam_from_chir], one w. *)
Definition lam_from_chir_w n (sign : F) (gchir : 'M[F]_n) (gchi0 : 'rV[F]_n) : 'rV[F]_n :=
  \row_i (- sign * (1 - \sum_j gchir i j * (1 / gchi0 0 i))).
(** lines 337-340 [vrg_from_lam], one w. *)
Definition vrg_from_lam_w n (sign ur : F) (lam : 'rV[F]_n) (chir : F) : 'rV[F]_n :=
  \row_i ((1 + sign * lam 0 i) / (1 - ur * chir)).
(** lines 343-347 [get_chir_shell], one w. *)
Definition get_chir_shell_w n (beta sign : F) (lam_tilde : 'rV[F]_n) (chi0_shell : F) (gchi0_core : 'rV[F]_n) (u : F) : F :=
  - sign * u * chi0_shell ^+ 2 +
  chi0_shell * (1 - 2%:R * u * 1 / beta ^+ 2 * \sum_i (lam_tilde 0 i + sign) * gchi0_core 0 i).
(** lines 350-352 [get_chir_tilde], one w. *)
Definition get_chir_tilde_w n (beta sign : F) (lam_tilde : 'rV[F]_n) (chir_core chi0_shell : F) (gchi0_core : 'rV[F]_n) (u : F) : F :=
  (chir_core + get_chir_shell_w beta sign lam_tilde chi0_shell gchi0_core u) / (1 - (u * chi0_shell) ^+ 2).
(** lines 355-363 [get_lam_shell], [get_lam_tilde], one w. *)
Definition get_lam_shell_w (chi0_shell u : F) : F := u * chi0_shell.
Definition get_lam_tilde_w n (u ur : F) (lam_core : 'rV[F]_n) (chi0_shell : F) : 'rV[F]_n :=
  \row_i ((lam_core 0 i - get_lam_shell_w chi0_shell u) / (1 + ur * chi0_shell)).

(** lines 473-490 [gamob2_from_gchir_urange_wn] ([u] is u_r at the call in line 468). *)
Definition gamob2_from_gchir_urange_wn nc ns (beta u : F) (gchir : 'M[F]_(nc.*2)) (gchi0_urange : 'rV[F]_((nc + ns).*2)) : res 'M[F]_(nc.*2) :=
  let chi_tilde_shell_inv := add_scalar (np_diag (rinv gchi0_urange)) (u / (beta * beta)) in
  let! chi_tilde_shell := np_inv chi_tilde_shell_inv in
  let inv_core := cut_v_mx chi_tilde_shell in
  let! chi_tilde_core := np_inv inv_core in
  let! chigr_inv := np_inv gchir in
  Ok (add_scalar (chigr_inv - chi_tilde_core) (u / (beta * beta))).

(** lines 493-496 [chi_phys_urange], one w. *)
Definition chi_phys_urange_w (ur chir_aux chi0_core chi0_urange : F) : F :=
  1 / (1 / (chir_aux + chi0_urange - chi0_core) + ur).
(** lines 499-501 [chi_phys_asympt], one w. *)
Definition chi_phys_asympt_w (chir_urange chi0_urange chi0_asympt : F) : F := chir_urange + chi0_asympt - chi0_urange.

(** lines 504-507 [gchi_aux_core], one w. *)
Definition gchi_aux_core_w n (beta ur : F) (gchir : 'M[F]_n) : res 'M[F]_n :=
  let! i := np_inv gchir in np_inv (add_scalar i (- (ur / beta ^+ 2))).
(** lines 510-514 [gchi_aux_core_from_gammar] (535-544 [local_gchi_aux_from_gammar] is the same formula), one w. *)
Definition gchi_aux_core_from_gammar_w n (beta ur : F) (gammar : 'M[F]_n) (gchi0_core : 'rV[F]_n) : res 'M[F]_n :=
  np_inv (add_scalar (np_diag (rinv gchi0_core) + gammar) (- (ur / beta ^+ 2))).
(** lines 517-525 [gchi_aux_core_from_gammar_urange], one w. *)
Definition gchi_aux_core_from_gammar_urange_w nc ns (beta ur : F) (gammar : 'M[F]_(nc.*2)) (gchi0 : 'rV[F]_((nc + ns).*2)) : res 'M[F]_((nc + ns).*2) :=
  np_inv (add_scalar (np_diag (rinv gchi0) + append_v_vp_shell_mx ns gammar (ur / beta ^+ 2)) (- (ur / beta ^+ 2))).
(** lines 528-532 [gchi_aux_asympt] for a single w (for several w numpy would broadcast the [w] factor along vp). *)
Definition gchi_aux_asympt_w n (u ur : F) (gchi_aux : 'M[F]_n) (chi_urange chi_asympt : F) : 'M[F]_n :=
  let u_mat := const_mx u in
  gchi_aux + (- (1 - ur * chi_urange) + (1 - ur * chi_urange) ^+ 2 / (1 - ur * chi_asympt)) *: (gchi_aux *m u_mat *m gchi_aux).

(** [np.sum(mat, axis=sum_axis)] for sum_axis = -1 (last index) and -2. *)
Definition sum_axis_w n (last : bool) (m : 'M[F]_n) : 'rV[F]_n :=
  \row_i (if last then \sum_j m i j else \sum_j m j i).
(** lines 547-551 [vrg_from_gchi_aux_asympt] and 554-558 [vrg_from_gchi_aux], one w. *)
Definition vrg_from_gchi_aux_asympt_w n (ur : F) (gchir_aux : 'M[F]_n) (gchi0_core : 'rV[F]_n) (chir_urange chir_asympt : F) (last : bool) : 'rV[F]_n :=
  \row_i (1 / gchi0_core 0 i * sum_axis_w last gchir_aux 0 i * (1 - ur * chir_urange) / (1 - ur * chir_asympt)).
Definition vrg_from_gchi_aux_w n (gchir_aux : 'M[F]_n) (gchi0_core : 'rV[F]_n) (last : bool) : 'rV[F]_n :=
  \row_i (1 / gchi0_core 0 i * sum_axis_w last gchir_aux 0 i).

(** lines 366-389 [get_vrg_and_chir_tilde_from_gammar_urange], one w.  The bubble generator is asked for chi0 on the core
    and the full box and for gchi0 on the core (lines 375-377); they are arguments here. *)
Definition get_vrg_and_chir_urange_w n (beta ur : F) (gammar : 'M[F]_n) (chi0_core chi0_urange : F) (gchi0_core : 'rV[F]_n) (last : bool) : res ('rV[F]_n * F) :=
  let! gchi_aux := gchi_aux_core_from_gammar_w beta ur gammar gchi0_core in
  let chi_aux_core := contract_legs_4 beta gchi_aux in
  let chi_urange := chi_phys_urange_w ur chi_aux_core chi0_core chi0_urange in
  Ok (vrg_from_gchi_aux_w gchi_aux gchi0_core last, chi_urange).
(** lines 392-419 [get_vrg_and_chir_tilde_from_gammar_uasympt], one w. *)
Definition get_vrg_and_chir_uasympt_w n (beta ur : F) (gammar : 'M[F]_n) (chi0_core chi0_urange chi0_shell : F) (gchi0_core : 'rV[F]_n) (last : bool) : res ('rV[F]_n * F) :=
  let chi0_asympt := chi0_urange + chi0_shell in
  let! gchi_aux := gchi_aux_core_from_gammar_w beta ur gammar gchi0_core in
  let chi_aux_core := contract_legs_4 beta gchi_aux in
  let chi_urange := chi_phys_urange_w ur chi_aux_core chi0_core chi0_urange in
  let chi_asympt := chi_phys_asympt_w chi_urange chi0_urange chi0_asympt in
  Ok (vrg_from_gchi_aux_asympt_w ur gchi_aux gchi0_core chi_urange chi_asympt last, chi_asympt).
(** lines 422-428 [get_f_dc_asympt], one w. *)
Definition get_f_dc_asympt_w n (beta ur : F) (vrg : 'rV[F]_n) (gchi_aux : 'M[F]_n) (chi_phys : F) (gchi0 : 'rV[F]_n) : 'M[F]_n :=
  \matrix_(i, j) (beta ^+ 2 * 1 / gchi0 0 i * ((1%:M : 'M[F]_n) i j - gchi_aux i j * 1 / gchi0 0 j)
                  + ur * (1 - ur * chi_phys) * vrg 0 i * vrg 0 j).
End Model.
