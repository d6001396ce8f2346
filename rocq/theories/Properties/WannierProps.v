(** Properties C39, C40, C64 and C65. *)
From Coq Require Import Reals List ZArith Lra Lia String.
From Verif Require Import Base.PyBase Model.Wannier Spec.WannierSpec Proofs.WannierP Proofs.WannierSymP Proofs.WannierMeanP Model.HrFile Proofs.HrFileP.
Import ListNotations.
Local Open Scope R_scope.

(** * C39: dispersions *)
Theorem C39_square_dispersion t tp tpp (k : kvec) :
  let kx := k 0%nat in let ky := k 1%nat in
  convham (wannier_one_band_2d_t_tp_tpp t tp tpp) k 0 0
  = (- 2 * t * (cos kx + cos ky) - 4 * tp * cos kx * cos ky - 2 * tpp * (cos (2 * kx) + cos (2 * ky)), 0).
Proof. exact (t_tp_tpp_disp t tp tpp k). Qed.
Print Assumptions C39_square_dispersion.
(** ... and the array returned by get_ek holds it at entry (ix,iy,iz) for k = 2 pi (ix/nkx, iy/nky, iz/nkz). *)
Theorem C39_square_on_mesh t tp tpp nkx nky nkz ix iy iz : (ix < nkx)%nat -> (iy < nky)%nat -> (iz < nkz)%nat ->
  let kx := mesh_k nkx ix in let ky := mesh_k nky iy in
  get_ek (wannier_one_band_2d_t_tp_tpp t tp tpp) nkx nky nkz ix iy iz
  = (- 2 * t * (cos kx + cos ky) - 4 * tp * cos kx * cos ky - 2 * tpp * (cos (2 * kx) + cos (2 * ky)), 0).
Proof. exact (get_ek_square t tp tpp nkx nky nkz ix iy iz). Qed.
Print Assumptions C39_square_on_mesh.
Theorem C39_nematic_on_mesh tx ty tppx tppy tpxy nkx nky nkz ix iy iz : (ix < nkx)%nat -> (iy < nky)%nat -> (iz < nkz)%nat ->
  get_ek (wannier_one_band_2d_nematic tx ty tppx tppy tpxy) nkx nky nkz ix iy iz
  = (- 2 * tx * cos (mesh_k nkx ix) - 2 * ty * cos (mesh_k nky iy) - 4 * tpxy * cos (mesh_k nkx ix) * cos (mesh_k nky iy)
     - 2 * tppx * cos (2 * mesh_k nkx ix) - 2 * tppy * cos (2 * mesh_k nky iy), 0).
Proof. exact (get_ek_nematic tx ty tppx tppy tpxy nkx nky nkz ix iy iz). Qed.
Print Assumptions C39_nematic_on_mesh.
(** The real-space Emery Hamiltonian transforms into the Bloch Hamiltonian that emery_model_ek writes down. *)
Theorem C39_emery ed ep tpd tpp tpp_p k a b : (a < 3)%nat -> (b < 3)%nat ->
  convham (wannier_emery_model ed ep tpd tpp tpp_p) k a b = emery_hk (k 0%nat) (k 1%nat) ed ep tpp tpd tpp_p a b.
Proof. exact (emery_ok ed ep tpd tpp tpp_p k a b). Qed.
Print Assumptions C39_emery.
(** The older dispersion functions agree with it. *)
Theorem C39_ek_3d tx ty tppx tppy tpxy t tp tpp kx ky kz qx qy qz h k :
  ek_3d (one_band_2d_t_tp_tpp t tp tpp) kx ky kz = ek_square kx ky t tp tpp /\
  ekpq_3d kx ky kz qx qy qz h = ek_3d h (kx + qx) (ky + qy) (kz + qz) /\
  convham (wannier_one_band_2d_nematic tx ty tppx tppy tpxy) k 0 0
  = (ek_3d (one_band_2d_nematic tx ty tppx tppy tpxy) (k 0%nat) (k 1%nat) (k 2%nat), 0).
Proof. exact (conj_all _ _ _ (ek_3d_square t tp tpp kx ky kz) (ekpq_ek h kx ky kz qx qy qz) (ek_3d_nematic tx ty tppx tppy tpxy k)). Qed.
Print Assumptions C39_ek_3d.
(** Finding: the third entry of the third row is multiplied by cos(kz), not cos(2 kz) as in the x and y directions. *)
Theorem C39_ek_3d_z_finding : exists h kx ky kz,
  ek_3d h kx ky kz <> - 2 * (h 0%nat 0%nat * cos kx + h 0%nat 1%nat * cos ky + h 0%nat 2%nat * cos kz)
    - 2 * (h 1%nat 0%nat * cos (kx + ky) + h 1%nat 1%nat * cos (kx - ky))
    - 2 * (h 2%nat 0%nat * cos (2 * kx) + h 2%nat 1%nat * cos (2 * ky) + h 2%nat 2%nat * cos (2 * kz)).
Proof. exact ek_3d_z_wrong. Qed.
Print Assumptions C39_ek_3d_z_finding.

(** * C64: symmetries of H(k) *)
(** For any file with Hermitian hopping, H(k) is Hermitian at every k, so band energies are real. *)
Theorem C64_hermitian w k a b : hermitian_hopping w -> convham w k b a = conj (convham w k a b).
Proof. exact (convham_hermitian w k a b). Qed.
Print Assumptions C64_hermitian.
Theorem C64_diagonal_real w k a : hermitian_hopping w -> snd (convham w k a a) = 0.
Proof. exact (convham_diag_real w k a). Qed.
Print Assumptions C64_diagonal_real.
Theorem C64_models_hermitian tx ty tppx tppy tpxy ed ep tpd tpp tpp_p k a b :
  hermitian_hopping (wannier_one_band_2d_nematic tx ty tppx tppy tpxy) /\
  ((a < 3)%nat -> (b < 3)%nat ->
   convham (wannier_emery_model ed ep tpd tpp tpp_p) k b a = conj (convham (wannier_emery_model ed ep tpd tpp tpp_p) k a b)).
Proof. exact (Logic.conj (square_hermitian tx ty tppx tppy tpxy) (emery_hermitian ed ep tpd tpp tpp_p k a b)). Qed.
Print Assumptions C64_models_hermitian.
(** H(k) has the period of the reciprocal lattice. *)
Theorem C64_periodic w k (g : nat -> Z) a b : integer_vectors w ->
  convham w (fun d => k d + 2 * PI * IZR (g d)) a b = convham w k a b.
Proof. exact (convham_periodic w k g a b). Qed.
Print Assumptions C64_periodic.
(** The mesh arrays have the symmetries that the irreducible-zone code is told to use. *)
Theorem C64_mesh_inversions tx ty tppx tppy tpxy nkx nky nkz ix iy iz : (ix < nkx)%nat -> (iy < nky)%nat -> (iz < nkz)%nat ->
  let e := get_ek (wannier_one_band_2d_nematic tx ty tppx tppy tpxy) nkx nky nkz in
  e ((nkx - ix) mod nkx)%nat iy iz = e ix iy iz /\ e ix ((nky - iy) mod nky)%nat iz = e ix iy iz /\ e ix iy ((nkz - iz) mod nkz)%nat = e ix iy iz.
Proof. exact (nematic_inv_x tx ty tppx tppy tpxy nkx nky nkz ix iy iz). Qed.
Print Assumptions C64_mesh_inversions.
Theorem C64_mesh_swap t tp tpp nk nkz ix iy iz : (ix < nk)%nat -> (iy < nk)%nat -> (iz < nkz)%nat ->
  get_ek (wannier_one_band_2d_t_tp_tpp t tp tpp) nk nk nkz iy ix iz = get_ek (wannier_one_band_2d_t_tp_tpp t tp tpp) nk nk nkz ix iy iz.
Proof. exact (square_swap t tp tpp nk nkz ix iy iz). Qed.
Print Assumptions C64_mesh_swap.
(** The nematic model does break the x-y symmetry. *)
Theorem C64_nematic_breaks_swap : exists tx ty tppx tppy tpxy nk ix iy, (ix < nk)%nat /\ (iy < nk)%nat /\
  get_ek (wannier_one_band_2d_nematic tx ty tppx tppy tpxy) nk nk 1 iy ix 0 <> get_ek (wannier_one_band_2d_nematic tx ty tppx tppy tpxy) nk nk 1 ix iy 0.
Proof. exact nematic_no_swap. Qed.
Print Assumptions C64_nematic_breaks_swap.
(** Averaging H(k) over the mesh leaves the hoppings whose lattice vector is a multiple of the mesh: the local Hamiltonian. *)
Theorem C64_mesh_sum w nx ny nz a b (zx zy zz : nat -> Z) : (0 < nx)%nat -> (0 < ny)%nat -> (0 < nz)%nat ->
  (forall r, (r < n_r w)%nat -> r_grid w r a b 0%nat = IZR (zx r) /\ r_grid w r a b 1%nat = IZR (zy r) /\ r_grid w r a b 2%nat = IZR (zz r)) ->
  let keep r := divides3 nx ny nz (zx r) (zy r) (zz r) in
  let part (p : cpx -> R) := INR nx * INR ny * INR nz * rsum (n_r w) (fun r => if keep r then p (hr w r a b) / r_weights w r else 0) in
  sum3 nx ny nz (fun i j l => fst (get_ek_all w nx ny nz i j l a b)) = part fst /\
  sum3 nx ny nz (fun i j l => snd (get_ek_all w nx ny nz i j l a b)) = part snd.
Proof. exact (mesh_sum_convham w nx ny nz a b zx zy zz). Qed.
Print Assumptions C64_mesh_sum.
Theorem C64_square_mean_zero tx ty tppx tppy tpxy nx ny nz : (2 < nx)%nat -> (2 < ny)%nat -> (0 < nz)%nat ->
  sum3 nx ny nz (fun i j l => fst (get_ek (wannier_one_band_2d_nematic tx ty tppx tppy tpxy) nx ny nz i j l)) = 0.
Proof. exact (nematic_mean tx ty tppx tppy tpxy nx ny nz). Qed.
Print Assumptions C64_square_mean_zero.
Theorem C64_emery_mean ed ep tpd tpp tpp_p nx ny nz a b : (2 < nx)%nat -> (2 < ny)%nat -> (0 < nz)%nat -> (a < 3)%nat -> (b < 3)%nat ->
  let onsite := nth b (nth a [[ed; tpd; tpd]; [tpd; ep; tpp]; [tpd; tpp; ep]] []) 0 in
  sum3 nx ny nz (fun i j l => fst (get_ek_all (wannier_emery_model ed ep tpd tpp tpp_p) nx ny nz i j l a b)) = INR nx * INR ny * INR nz * onsite /\
  sum3 nx ny nz (fun i j l => snd (get_ek_all (wannier_emery_model ed ep tpd tpp tpp_p) nx ny nz i j l a b)) = 0.
Proof. exact (emery_mean ed ep tpd tpp tpp_p nx ny nz a b). Qed.
Print Assumptions C64_emery_mean.
(** Non-vacuity of [integer_vectors], [hermitian_hopping]: the built-in models. *)
Example square_integer tx ty tppx tppy tpxy : integer_vectors (wannier_one_band_2d_nematic tx ty tppx tppy tpxy).
Proof.
  intros r a b d. do 12 (destruct r as [|r]; [destruct d as [|[|d]]; cbn; (exists 0%Z; reflexivity) || (exists 1%Z; reflexivity) || (exists (-1)%Z; reflexivity) || (exists 2%Z; reflexivity) || (exists (-2)%Z; reflexivity)|]).
  exists 0%Z. destruct r, d as [|[|d]]; reflexivity.
Qed.

(** * C40: light vertex *)
(** The light vertex for direction [der] is the derivative of H(k) with respect to that component of k. *)
Theorem C40_light_vertex_is_derivative w der k a b : (der < 3)%nat ->
  cderiv (fun x => convham w (with_k k der x) a b) (k der) (light_vertex w der k a b).
Proof. exact (light_vertex_deriv w der k a b). Qed.
Print Assumptions C40_light_vertex_is_derivative.
Theorem C40_light_vertex_on_mesh w der nkx nky nkz ix iy iz : (der < 3)%nat -> (ix < nkx)%nat -> (iy < nky)%nat -> (iz < nkz)%nat ->
  let k : kvec := fun d => match d with O => mesh_k nkx ix | S O => mesh_k nky iy | _ => mesh_k nkz iz end in
  cderiv (fun x => convham w (with_k k der x) 0 0) (k der) (get_light_vertex w der nkx nky nkz ix iy iz).
Proof. exact (light_vertex_mesh_deriv w der nkx nky nkz ix iy iz). Qed.
Print Assumptions C40_light_vertex_on_mesh.
Theorem C40_square kx ky t tp tpp :
  derivable_pt_lim (fun x => - 2 * t * (cos x + cos ky) - 4 * tp * cos x * cos ky - 2 * tpp * (cos (2 * x) + cos (2 * ky))) kx (del_ek_del_kx_square kx ky t tp tpp).
Proof. exact (ek_square_deriv kx ky t tp tpp). Qed.
Print Assumptions C40_square.
(** On the square lattice the x light vertex is the explicit sine formula. *)
Theorem C40_square_vertex t tp tpp k :
  light_vertex (wannier_one_band_2d_t_tp_tpp t tp tpp) 0 k 0 0 = (del_ek_del_kx_square (k 0%nat) (k 1%nat) t tp tpp, 0).
Proof. exact (square_light_vertex t tp tpp k). Qed.
Print Assumptions C40_square_vertex.
(** The mesh sum of the light vertex of a one-band square lattice vanishes (no current without a field): it is odd in k. *)
Theorem C40_square_vertex_odd t tp tpp k :
  light_vertex (wannier_one_band_2d_t_tp_tpp t tp tpp) 0 (fun d => - k d) 0 0
  = (- fst (light_vertex (wannier_one_band_2d_t_tp_tpp t tp tpp) 0 k 0 0), 0).
Proof. exact (square_light_vertex_odd t tp tpp k). Qed.
Print Assumptions C40_square_vertex_odd.

(** * C65: the Hr text file *)
Local Open Scope Z_scope.
(** In the entries after the first of a line, integers are above -1000 and negative matrix elements above -1000. *)
Definition fits (r : hrow) : Prop :=
  -1000 < ry r /\ -1000 < rz r /\ -1000 < o1 r /\ -1000 < o2 r /\
  0 <= mag (h_re r) /\ 0 <= mag (h_im r) /\
  (neg (h_re r) = true -> mag (h_re r) < 1000 * 1000000) /\ (neg (h_im r) = true -> mag (h_im r) < 1000 * 1000000).
(** Reading back a written file gives all matrix elements (to the six decimals written), lattice vectors, weights and
    orbital numbers, in the same order; values are in units of 10^-6, weights are integers. *)
Theorem C65_hr_roundtrip nb isf ws rows :
  zlen rows = zlen ws * nb * nb -> Forall fits rows ->
  read_hr_w2k (write_hr_w2k nb (zlen ws) isf ws rows) =
  Ok (map (fun r => (fval_value (h_re r), fval_value (h_im r))) rows,
      map (fun r => (1000000 * rx r, 1000000 * ry r, 1000000 * rz r)) rows,
      ws, map (fun r => (1000000 * o1 r, 1000000 * o2 r)) rows).
Proof. exact (@hr_roundtrip_fits nb isf ws rows). Qed.
Print Assumptions C65_hr_roundtrip.
(** Finding: the bound is sharp; an imaginary part of -1000 fills its column and is glued to the real part. *)
Theorem C65_fused_columns_finding : exists r,
  h_im r = {| neg := true; mag := 1000 * 1000000 |} /\ read_hr_w2k (write_hr_w2k 1 1 false [1] [r]) = Raise ValueError.
Proof. exact (ex_intro _ fused_row (Logic.conj eq_refl hr_fused)). Qed.
Print Assumptions C65_fused_columns_finding.
(** Finding: the orbital numbers of the Emery model are not those of the matrix element they belong to. *)
Theorem C65_create_orbs_finding : exists r a b d, (r < 7)%nat /\ (a < 3)%nat /\ (b < 3)%nat /\ (d < 2)%nat /\
  orbs (wannier_emery_model 0 0 0 0 0) r a b d <> (match d with O => INR (a + 1) | _ => INR (b + 1) end)%R.
Proof. exact create_orbs_wrong. Qed.
Print Assumptions C65_create_orbs_finding.
(** Non-vacuity: a one-band file with 16 vectors (two weight lines), negative entries and a negative zero. *)
Example hr_example :
  let row i := {| rx := i; ry := - i; rz := -999; o1 := 1; o2 := 1; h_re := {| neg := true; mag := 999999999 |}; h_im := {| neg := true; mag := 0 |} |} in
  let rows := map (fun i => row (Z.of_nat i)) (List.seq 0 16) in
  zlen rows = zlen (repeat 1 16) * 1 * 1 /\ Forall fits rows.
Proof.
  split; [reflexivity|]. apply Forall_forall. intros r H. apply in_map_iff in H as [i [<- Hi]]. apply in_seq in Hi.
  unfold fits. cbn [ry rz o1 o2 h_re h_im neg mag]. repeat split; lia.
Qed.
