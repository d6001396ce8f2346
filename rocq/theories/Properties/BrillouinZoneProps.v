(** Properties of the momentum mesh and of its symmetry reduction (brillouin_zone.py). *)
From Coq Require Import String Reals Lra.
From Verif Require Import Base.PyBase Base.PyFacts Base.Arr Spec.BZSpec Spec.KPathSpec Model.BrillouinZone Model.KPath Proofs.BrillouinZoneP Proofs.KPathP.
Local Open Scope string_scope.
Local Open Scope Z_scope.
Local Open Scope list_scope.

(** ** C17 *)
(** For every mesh and every list of known symmetries, a mesh function invariant under the point operations the list
    names survives folding to the irreducible zone and unfolding again. *)
Theorem C17_fold_unfold : forall A nx ny nz syms g (f : list (list (list A))), 0 < nx -> 0 < ny -> 0 < nz -> Forall known syms ->
  make_kgrid nx ny nz syms = Ok g -> shape3 f nx ny nz ->
  (forall s k, In s syms -> on_mesh nx ny nz k -> at3 f (point_op nx ny nz s k) = at3 f k) ->
  exists irr, map_fbz2irrk g f = Ok irr /\ zlen irr = nk_irr g /\ map_irrk2fbz g irr = Ok f.
Proof. exact fold_unfold. Qed.
Print Assumptions C17_fold_unfold.
(** Building the grid never raises for known names, and raises AssertionError as soon as an unknown name is met. *)
Theorem C17_grid_exists : forall nx ny nz syms, 0 < nx -> 0 < ny -> 0 < nz -> Forall known syms ->
  exists g, make_kgrid nx ny nz syms = Ok g /\ nkx g = nx /\ nky g = ny /\ nkz g = nz /\ nk_tot g = nx * ny * nz.
Proof.
  intros nx ny nz syms Hx Hy Hz Hk. destruct (make_kgrid_spec Hx Hy Hz Hk) as (g & E & Ex & Ey & Ez & _). exists g. unfold nk_tot. rewrite Ex, Ey, Ez. auto.
Qed.
Print Assumptions C17_grid_exists.
Theorem C17_unknown_symmetry_raises : forall nx ny nz syms s rest, 0 < nx -> 0 < ny -> 0 < nz -> Forall known syms -> ~ known s ->
  make_kgrid nx ny nz (syms ++ s :: rest) = Raise AssertionError.
Proof. exact unknown_raises. Qed.
Print Assumptions C17_unknown_symmetry_raises.
(** a 4x4x1 mesh with the square-lattice symmetries: 6 irreducible points; f = distance-like function *)
Definition ex_f : list (list (list Z)) :=
  map (fun x => map (fun y => map (fun z => (Z.min x (4 - x) * Z.min y (4 - y))) (range 1)) (range 4)) (range 4).
Example C17_nonvacuous : exists g, make_kgrid 4 4 1 two_dimensional_square_symmetries = Ok g /\ shape3 ex_f 4 4 1 /\
  Forall known two_dimensional_square_symmetries /\
  (forall s k, In s two_dimensional_square_symmetries -> on_mesh 4 4 1 k -> at3 ex_f (point_op 4 4 1 s k) = at3 ex_f k) /\
  map_fbz2irrk g ex_f = Ok [0; 0; 0; 1; 2; 4].
Proof.
  eexists. split; [vm_compute; reflexivity|]. split; [apply shape3b_ok; vm_compute; reflexivity|].
  split; [repeat constructor; unfold known; cbn; tauto|]. split; [|vm_compute; reflexivity].
  intros s [[x y] z] Hs (Hx & Hy & Hz). assert (z = 0) by lia. subst z.
  assert (Ex : x = 0 \/ x = 1 \/ x = 2 \/ x = 3) by lia. assert (Ey : y = 0 \/ y = 1 \/ y = 2 \/ y = 3) by lia.
  cbn [In two_dimensional_square_symmetries] in Hs.
  destruct Hs as [<-|[<-|[<-|[]]]]; destruct Ex as [-> | [-> | [-> | ->]]]; destruct Ey as [-> | [-> | [-> | ->]]]; vm_compute; reflexivity.
Qed.

(** ** C18 *)
Theorem C18_unfold_fold : forall A nx ny nz syms g (irr : list A), 0 < nx -> 0 < ny -> 0 < nz -> Forall known syms ->
  make_kgrid nx ny nz syms = Ok g -> zlen irr = nk_irr g ->
  exists f, map_irrk2fbz g irr = Ok f /\ shape3 f nx ny nz /\ map_fbz2irrk g f = Ok irr.
Proof. exact unfold_fold. Qed.
Print Assumptions C18_unfold_fold.
(** For inversion lists optionally followed by the x-y exchange the unfolded array has every symmetry of the list. *)
Theorem C18_unfold_invariant : forall A nx ny nz syms g (irr : list A) f, 0 < nx -> 0 < ny -> 0 < nz -> standard_list syms ->
  make_kgrid nx ny nz syms = Ok g -> zlen irr = nk_irr g -> map_irrk2fbz g irr = Ok f ->
  forall s k, In s syms -> on_mesh nx ny nz k -> at3 f (point_op nx ny nz s k) = at3 f k.
Proof. exact unfold_invariant. Qed.
Print Assumptions C18_unfold_invariant.
Example C18_predefined_lists : standard_list two_dimensional_square_symmetries /\ standard_list two_dimensional_nematic_symmetries /\
  standard_list quasi_two_dimensional_square_symmetries /\ standard_list quasi_one_dimensional_square_symmetries.
Proof.
  repeat split.
  - exists ["x-inv"; "y-inv"]. split; [repeat constructor; unfold inversion_name; cbn; tauto|]. right. split; [reflexivity|cbn; tauto].
  - exists ["x-inv"; "y-inv"]. split; [repeat constructor; unfold inversion_name; cbn; tauto|]. now left.
  - exists ["x-inv"; "y-inv"; "z-inv"]. split; [repeat constructor; unfold inversion_name; cbn; tauto|]. right. split; [reflexivity|cbn; tauto].
  - exists ["x-inv"; "y-inv"]. split; [repeat constructor; unfold inversion_name; cbn; tauto|]. now left.
Qed.
(** Finding: the full claim fails for the predefined list ['x-y-inv'] on every mesh with ny >= 3: points (0,y) and (0,-y) are
    named equivalent by the symmetry but are kept apart, so an unfolded array need not have the symmetry. *)
Theorem C18_x_y_inv_refuted : forall nx ny nz, 0 < nx -> 3 <= ny -> 0 < nz ->
  exists g (irr : list Z) f, make_kgrid nx ny nz simultaneous_x_y_inversion = Ok g /\ zlen irr = nk_irr g /\ map_irrk2fbz g irr = Ok f /\
    at3 f (point_op nx ny nz "x-y-inv" (0, 1, 0)) <> at3 f (0, 1, 0).
Proof. exact x_y_inv_incomplete. Qed.
Print Assumptions C18_x_y_inv_refuted.
(** Finding: the order of the names matters; with the exchange in the middle the list is not closed. *)
Theorem C18_order_matters_refuted : exists g (irr : list Z) f, make_kgrid 4 4 1 ["x-inv"; "x-y-sym"; "y-inv"] = Ok g /\ zlen irr = nk_irr g /\
  map_irrk2fbz g irr = Ok f /\ at3 f (point_op 4 4 1 "x-inv" (1, 0, 0)) <> at3 f (1, 0, 0).
Proof.
  eexists. exists (arange 0 7). eexists. split; [vm_compute; reflexivity|]. split; [vm_compute; reflexivity|]. split; [vm_compute; reflexivity|].
  vm_compute. discriminate.
Qed.
Print Assumptions C18_order_matters_refuted.

(** ** C19 *)
(** Entries live in any commutative monoid; [scale n] is multiplication by 1/n. *)
Theorem C19_k_mean : forall (A : Type) (zero : A) (add : A -> A -> A) (scale : Z -> A -> A),
  (forall a b c, add a (add b c) = add (add a b) c) -> (forall a b, add a b = add b a) -> (forall a, add zero a = a) ->
  forall nx ny nz syms g (irr : list A), 0 < nx -> 0 < ny -> 0 < nz -> Forall known syms -> make_kgrid nx ny nz syms = Ok g -> zlen irr = nk_irr g ->
  exists f, map_irrk2fbz g irr = Ok f /\ k_mean_irrk zero add scale g irr = Ok (scale (nx * ny * nz) (fold_right add zero (concat (map (@concat A) f)))).
Proof.
  intros A zero add scale H1 H2 H3 nx ny nz syms g irr Hx Hy Hz Hk E Hl. destruct (grid_dims Hx Hy Hz Hk E) as (Ex & Ey & Ez).
  destruct (@k_mean_irrk_mesh A zero add scale H1 H2 H3 nx ny nz syms g irr Hx Hy Hz Hk E Hl) as (f & Ef & Em). exists f. split; [assumption|].
  rewrite Em. unfold k_mean_mesh, nk_tot. now rewrite Ex, Ey, Ez.
Qed.
Print Assumptions C19_k_mean.
Theorem C19_counts : forall nx ny nz syms g, 0 < nx -> 0 < ny -> 0 < nz -> Forall known syms ->
  make_kgrid nx ny nz syms = Ok g -> zsum (irrk_count g) = nx * ny * nz /\ (forall c, In c (irrk_count g) -> 0 < c) /\ zlen (irrk_count g) = nk_irr g.
Proof.
  intros nx ny nz syms g Hx Hy Hz Hk E. destruct (grid_dims Hx Hy Hz Hk E) as (Ex & Ey & Ez).
  destruct (counts_sum Hx Hy Hz Hk E) as (H & H'). unfold nk_tot in H. rewrite Ex, Ey, Ez in H. now split.
Qed.
Print Assumptions C19_counts.
Example C19_nonvacuous : exists g, make_kgrid 4 4 1 two_dimensional_square_symmetries = Ok g /\ irrk_count g = [1; 4; 2; 4; 4; 1] /\
  k_mean_irrk 0 Z.add (fun _ a => a) g [0; 0; 0; 1; 2; 4] = Ok 16.
Proof. eexists. split; [vm_compute; reflexivity|]. split; vm_compute; reflexivity. Qed.

(** ** C20 *)
Theorem C20_shift_value : forall A (m : list (list (list A))) nx ny nz qx qy qz, shape3 m nx ny nz ->
  forall x y z, on_mesh nx ny nz (x, y, z) ->
  at3 (shift_mat_by_ind m qx qy qz) (x, y, z) = at3 m ((x - qx) mod nx, (y - qy) mod ny, (z - qz) mod nz).
Proof. exact shift_get. Qed.
Print Assumptions C20_shift_value.
Theorem C20_shift_compose : forall A (m : list (list (list A))) nx ny nz a b c a' b' c', shape3 m nx ny nz ->
  shift_mat_by_ind (shift_mat_by_ind m a b c) a' b' c' = shift_mat_by_ind m (a + a') (b + b') (c + c').
Proof. exact shift_compose. Qed.
Print Assumptions C20_shift_compose.
Theorem C20_shift_period : forall A (m : list (list (list A))) nx ny nz i j l, 0 < nx -> 0 < ny -> 0 < nz -> shape3 m nx ny nz ->
  shift_mat_by_ind m (i * nx) (j * ny) (l * nz) = m.
Proof. exact shift_period. Qed.
Print Assumptions C20_shift_period.
(** shift by (pi,pi,pi) moves by half the (possibly odd) mesh, and is an involution on even meshes *)
Theorem C20_shift_pi : forall A (m : list (list (list A))) nx ny nz, shape3 m nx ny nz ->
  forall x y z, on_mesh nx ny nz (x, y, z) ->
  at3 (shift_mat_by_pi m) (x, y, z) = at3 m ((x - nx / 2) mod nx, (y - ny / 2) mod ny, (z - nz / 2) mod nz).
Proof. exact shift_pi_get. Qed.
Print Assumptions C20_shift_pi.
Theorem C20_shift_pi_involution : forall A (m : list (list (list A))) nx ny nz, 0 < nx -> 0 < ny -> 0 < nz ->
  nx mod 2 = 0 -> ny mod 2 = 0 -> nz mod 2 = 0 -> shape3 m nx ny nz -> shift_mat_by_pi (shift_mat_by_pi m) = m.
Proof. exact shift_pi_twice. Qed.
Print Assumptions C20_shift_pi_involution.
Example C20_nonvacuous : shape3 ex_f 4 4 1 /\ shift_mat_by_ind ex_f 1 0 0 <> ex_f /\ at3 (shift_mat_by_ind ex_f (-1) 2 0) (3, 3, 0) = Some 0.
Proof. split; [apply shape3b_ok; vm_compute; reflexivity|]. split; [vm_compute; discriminate|vm_compute; reflexivity]. Qed.
(** shift_mat_by_q at a mesh momentum q = 2 pi (i/nx, j/ny, l/nz) is shift_mat_by_ind (i,j,l). *)
Theorem C20_shift_by_q : forall A (m : list (list (list A))) nx ny nz i j l, on_mesh nx ny nz (i, j, l) ->
  shift_mat_by_q (nx, ny, nz) m (2 * PI * IZR i / IZR nx, 2 * PI * IZR j / IZR ny, 2 * PI * IZR l / IZR nz)%R = shift_mat_by_ind m i j l.
Proof. exact shift_by_q_on_mesh. Qed.
Print Assumptions C20_shift_by_q.

(** ** C43 *)
Theorem C43_path_on_mesh : forall ckp nk, pos_grid nk -> Forall unit_pt ckp ->
  zlen (fst (build_k_path ckp nk)) = zsum (snd (build_k_path ckp nk)) /\ forall k, In k (fst (build_k_path ckp nk)) -> on_grid nk k.
Proof. exact path_on_mesh. Qed.
Print Assumptions C43_path_on_mesh.
(** a corner that is a mesh point is visited at the position given by the lengths of the preceding segments *)
Theorem C43_corner_visited : forall pre a b post nk c, pos_grid nk -> corner_at nk c a -> Forall unit_pt (pre ++ [a]) -> 0 < snd (kpath_segment a b nk) ->
  zget (fst (build_k_path (pre ++ a :: b :: post) nk)) (zsum (snd (build_k_path (pre ++ [a]) nk))) = Some (wrap_pt nk c).
Proof. exact path_corner_position. Qed.
Print Assumptions C43_corner_visited.
(** coordinates are right on isotropic meshes ... *)
Theorem C43_coordinates_isotropic : forall n kpts, (forall k, In k kpts -> on_grid (n, n, n) k) ->
  get_kpath_val (n, n, n) kpts = Ok (map (fun k => 2 * PI * IZR (fst (fst k)) / IZR n)%R kpts, map (fun k => 2 * PI * IZR (snd (fst k)) / IZR n)%R kpts, map (fun k => 2 * PI * IZR (snd k) / IZR n)%R kpts).
Proof. exact kpath_val_isotropic. Qed.
Print Assumptions C43_coordinates_isotropic.
(** ... but the y (and z) coordinates are looked up on the x axis: wrong, or IndexError, on every anisotropic mesh. *)
Theorem C43_anisotropic_wrong_refuted : forall n1 n2 n3 x y z, 0 <= x < n1 -> 0 < y < n2 -> y < n1 -> 0 <= z < n3 -> z < n1 -> n1 <> n2 ->
  exists kx ky kz, get_kpath_val (n1, n2, n3) [(x, y, z)] = Ok ([kx], [ky], [kz]) /\ ky <> (2 * PI * IZR y / IZR n2)%R.
Proof. exact kpath_val_anisotropic_wrong. Qed.
Print Assumptions C43_anisotropic_wrong_refuted.
Theorem C43_anisotropic_raises_refuted : forall n1 n2 n3 x y z, 0 <= x < n1 -> n1 <= y < n2 -> get_kpath_val (n1, n2, n3) [(x, y, z)] = Raise IndexError.
Proof. exact kpath_val_anisotropic_raises. Qed.
Print Assumptions C43_anisotropic_raises_refuted.
(** Finding: the tick positions [cind] of the inner corners are one less than the positions of the corners. *)
Theorem C43_cind_off_by_one_finding : forall nkp i, 0 <= i < zlen nkp -> zget (cind nkp) (i + 1) = Some (zsum (firstn (Z.to_nat (i + 1)) nkp) - 1).
Proof. exact cind_off_by_one. Qed.
Print Assumptions C43_cind_off_by_one_finding.
Example C43_nonvacuous : pos_grid (8, 8, 1) /\ Forall unit_pt [(0, 0, 0); (1/2, 0, 0); (1/2, 1/2, 0)]%R /\
  corner_at (8, 8, 1) (4, 0, 0) (1/2, 0, 0)%R /\ 0 < snd (kpath_segment (1/2, 0, 0)%R (1/2, 1/2, 0)%R (8, 8, 1)).
Proof.
  split; [cbn; lia|]. split; [repeat constructor; cbn; lra|]. split; [cbn; split; [lra|lia]|].
  unfold kpath_segment, segment_nkp. cbn [snd].
  replace (Rsqr (1 / 2 * IZR 8 - 1 / 2 * IZR 8) + Rsqr (0 * IZR 8 - 1 / 2 * IZR 8) + Rsqr (0 * IZR 1 - 0 * IZR 1))%R with (Rsqr 4) by (unfold Rsqr; lra).
  rewrite sqrt_Rsqr by lra. rewrite np_round_int. lia.
Qed.

(** ** C44: refuted *)
(** [symmetrize_irrk] indexes the flattened [nk_tot, rest] array with a three-dimensional boolean mask: IndexError on every grid. *)
Theorem C44_symmetrize_raises_refuted : forall nx ny nz syms g rest, 0 < nx -> 0 < ny -> 0 < nz -> Forall known syms -> make_kgrid nx ny nz syms = Ok g ->
  symmetrize_irrk g rest = Raise IndexError.
Proof. exact symmetrize_irrk_raises. Qed.
Print Assumptions C44_symmetrize_raises_refuted.

(** ** C48 *)
Theorem C48_representatives : forall nx ny nz syms g, 0 < nx -> 0 < ny -> 0 < nz -> Forall known syms -> make_kgrid nx ny nz syms = Ok g ->
  zlen (get_q_list g) = nx * ny * nz /\ (forall k, on_mesh nx ny nz k -> zget (get_q_list g) (lin ny nz k) = Some k) /\
  exists irrq, get_irrq_list g = Ok irrq /\ zlen irrq = nk_irr g /\
    (forall j q, zget irrq j = Some q -> on_mesh nx ny nz q /\ zget (irrk_inv g) (lin ny nz q) = Some j) /\
    (forall k, on_mesh nx ny nz k -> exists j q, zget (irrk_inv g) (lin ny nz k) = Some j /\ zget irrq j = Some q /\ equiv nx ny nz syms k q).
Proof.
  intros nx ny nz syms g Hx Hy Hz Hk E. destruct (grid_dims Hx Hy Hz Hk E) as (Ex & Ey & Ez).
  destruct (q_lists Hx Hy Hz Hk E) as (H & H'). unfold nk_tot in H. rewrite Ex, Ey, Ez in H. now split.
Qed.
Print Assumptions C48_representatives.
Example C48_nonvacuous : exists g, make_kgrid 4 4 1 two_dimensional_square_symmetries = Ok g /\
  get_irrq_list g = Ok [(0, 0, 0); (0, 1, 0); (0, 2, 0); (1, 1, 0); (1, 2, 0); (2, 2, 0)].
Proof. eexists. split; vm_compute; reflexivity. Qed.

(** ** C49 *)
(** the four quadrant masks are 0/1 valued and exactly one of them vanishes at every point *)
Theorem C49_masks : forall nk i j, 0 <= i < nk -> 0 <= j < nk ->
  exists a b c d, map (fun m => get2 m i j) (get_bz_masks nk) = [Some a; Some b; Some c; Some d] /\ a + b + c + d = 3 /\
    (forall v, In v [a; b; c; d] -> v = 0 \/ v = 1).
Proof. exact masks_partition. Qed.
Print Assumptions C49_masks.
Example C49_nonvacuous : map (fun m => get2 m 0 4) (get_bz_masks 5) = [Some 1; Some 1; Some 1; Some 0].
Proof. vm_compute. reflexivity. Qed.

(** ** C50 *)
Theorem C50_find_q : forall n i, 0 <= i < n -> find_q_ind_1 n (2 * PI * IZR i / IZR n)%R = i.
Proof. exact find_q_on_grid. Qed.
Print Assumptions C50_find_q.
(** for every momentum, find_q_ind is the nearest mesh point (no wrap-around at 2 pi: distance on the line) *)
Theorem C50_find_q_nearest : forall n q, 0 < n -> 0 <= find_q_ind_1 n q < n /\
  forall j, 0 <= j < n -> (Rabs (2 * PI * IZR (find_q_ind_1 n q) / IZR n - q) <= Rabs (2 * PI * IZR j / IZR n - q))%R.
Proof. exact find_q_nearest. Qed.
Print Assumptions C50_find_q_nearest.
(** Finding: momenta just below 2 pi are equivalent to 0 but are mapped to the last mesh point. *)
Theorem C50_no_wraparound_finding : forall n, 1 < n -> find_q_ind_1 n (2 * PI)%R = n - 1.
Proof. exact find_q_2pi. Qed.
Print Assumptions C50_no_wraparound_finding.
