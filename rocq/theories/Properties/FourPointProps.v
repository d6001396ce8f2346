(** Properties C34, C74-C80: lattice Schwinger-Dyson equation, ladder and DGA self-energy (dga/four_point.py,
    dga/high_level_routines.py:82-115, dga/dga_main.py:204-253). *)
From mathcomp Require Import all_ssreflect all_algebra.
From mathcomp.real_closed Require Import complex.
From Coq Require Import String ZArith Lia Permutation.
From Verif Require Import Base.PyBase Base.PyFacts Base.FieldTac Base.Arr Model.Matsubara Model.MpiAux Model.LocalFourPoint Model.LocalSDE Model.Bubble Model.FourPoint Model.DgaMain.
From Verif Require Model.BrillouinZone.
From Verif Require Import Spec.BZSpec Spec.BseSpec Spec.SdeSpec Spec.BubbleSpec Spec.LatticeSdeSpec.
From Verif Require Import Proofs.LocalFourPointP Proofs.BubbleP Proofs.LatticeSdeP Proofs.DgaMainP Proofs.LatticeSymP Proofs.DgaRanksP Proofs.LatticeBseP Proofs.LocalLimitP Proofs.FourPointFindP.
Import GRing.Theory.
Set Implicit Arguments. Unset Strict Implicit. Unset Printing Implicit Defensive.
Local Open Scope ring_scope.

(** ** C34 *)
(** The routine evaluates 1/(nq beta) sum_{q,w} Ker(q,w,v) G(k+q,v-w). *)
Theorem C34_lattice_sde : forall (F : fieldType) nx ny nz N (G : 'I_nx * 'I_ny * 'I_nz -> Z -> F) giwk, (forall k, giwk k = frow N (G k)) ->
  forall (beta nq : F) qs wn niv (Ker : nat -> nat -> Z -> F) k, wn <> nil -> fits_box niv N wn ->
  schwinger_dyson_kernel_q (2 * niv) (arr3 (size qs) (size wn) niv Ker) giwk beta qs wn nq k = Ok (frow niv (lattice_sde nq beta qs wn Ker G k)).
Proof. exact sde_kernel_ok. Qed.
Print Assumptions C34_lattice_sde.
(** Two lists of momenta, one after the other: the contributions add. *)
Theorem C34_additive : forall (F : fieldType) nx ny nz N (G : 'I_nx * 'I_ny * 'I_nz -> Z -> F) giwk, (forall k, giwk k = frow N (G k)) ->
  forall (beta nq : F) qs1 qs2 wn niv (Ker1 Ker2 : nat -> nat -> Z -> F) k, wn <> nil -> fits_box niv N wn ->
  exists s1 s2,
   schwinger_dyson_kernel_q (2 * niv) (arr3 (size qs1) (size wn) niv Ker1) giwk beta qs1 wn nq k = Ok s1 /\
   schwinger_dyson_kernel_q (2 * niv) (arr3 (size qs2) (size wn) niv Ker2) giwk beta qs2 wn nq k = Ok s2 /\
   schwinger_dyson_kernel_q (2 * niv) (arr3 (size qs1) (size wn) niv Ker1 ++ arr3 (size qs2) (size wn) niv Ker2)%list giwk beta (qs1 ++ qs2)%list wn nq k = np_map2 (fun x y => x + y) s1 s2.
Proof. exact sde_additive. Qed.
Print Assumptions C34_additive.
Theorem C34_linear_in_kernel : forall (F : fieldType) nx ny nz N (G : 'I_nx * 'I_ny * 'I_nz -> Z -> F) giwk, (forall k, giwk k = frow N (G k)) ->
  forall (beta nq a b : F) qs wn niv (Ker1 Ker2 : nat -> nat -> Z -> F) k, wn <> nil -> fits_box niv N wn ->
  exists s1 s2,
   schwinger_dyson_kernel_q (2 * niv) (arr3 (size qs) (size wn) niv Ker1) giwk beta qs wn nq k = Ok s1 /\
   schwinger_dyson_kernel_q (2 * niv) (arr3 (size qs) (size wn) niv Ker2) giwk beta qs wn nq k = Ok s2 /\
   schwinger_dyson_kernel_q (2 * niv) (arr3 (size qs) (size wn) niv (fun i j v => a * Ker1 i j v + b * Ker2 i j v)) giwk beta qs wn nq k = np_map2 (fun x y => a * x + b * y) s1 s2.
Proof. exact sde_linear. Qed.
Print Assumptions C34_linear_in_kernel.
(** The total over all ranks is the sum over all momenta, for any number of ranks and any order of the reduction. *)
Theorem C34_any_distribution : forall (F : fieldType) nx ny nz N (G : 'I_nx * 'I_ny * 'I_nz -> Z -> F) giwk, (forall k, giwk k = frow N (G k)) ->
  forall (beta u : F) qs wn nc chid chim vrgd vrgm kdc k, wn <> nil -> fits_box nc N wn -> forall p order, (0 < p)%Z -> Permutation order (arange 0 p) ->
  nonlocal_sde (2 * nc) (arr3 (size qs) (size wn) nc vrgd) (arr3 (size qs) (size wn) nc vrgm) (arr2 (size qs) (size wn) chid) (arr2 (size qs) (size wn) chim)
     (arr3 (size qs) (size wn) nc kdc) giwk beta u qs wn (Z.of_nat (size qs)) p order k =
  Ok (frow nc (lattice_sde (size qs)%:R beta qs wn (dga_kernel u chid chim vrgd vrgm kdc) G k)).
Proof. exact nonlocal_sde_ok. Qed.
Print Assumptions C34_any_distribution.

(** ** C74: the ladder self-energy routines *)
Theorem C74_full : forall (F : fieldType) nx ny nz N (G : 'I_nx * 'I_ny * 'I_nz -> Z -> F) giwk, (forall k, giwk k = frow N (G k)) ->
  forall (beta u nq : F) qs wn nc chid chim vrgd vrgm kdc k, wn <> nil -> fits_box nc N wn ->
  schwinger_dyson_full_q (2 * nc) (arr3 (size qs) (size wn) nc vrgd) (arr3 (size qs) (size wn) nc vrgm) (arr2 (size qs) (size wn) chid) (arr2 (size qs) (size wn) chim)
     (arr3 (size qs) (size wn) nc kdc) giwk beta u qs wn nq 0 k = Ok (frow nc (lattice_sde nq beta qs wn (dga_kernel u chid chim vrgd vrgm kdc) G k)).
Proof. exact sde_full_ok. Qed.
Print Assumptions C74_full.
(** with a shell: outside the core the kernel is u^2/2 (chi_d + chi_m), for the same chi *)
Theorem C74_full_with_shell : forall (F : fieldType) nx ny nz N (G : 'I_nx * 'I_ny * 'I_nz -> Z -> F) giwk, (forall k, giwk k = frow N (G k)) ->
  forall (beta u nq : F) qs wn nc ns chid chim vrgd vrgm kdc k, wn <> nil -> (0 <= nc)%Z -> (0 < ns)%Z -> fits_box (nc + ns) N wn ->
  schwinger_dyson_full_q (2 * nc) (arr3 (size qs) (size wn) nc vrgd) (arr3 (size qs) (size wn) nc vrgm) (arr2 (size qs) (size wn) chid) (arr2 (size qs) (size wn) chim)
     (arr3 (size qs) (size wn) nc kdc) giwk beta u qs wn nq ns k =
  Ok (frow (nc + ns) (lattice_sde nq beta qs wn (fun i j v => if (- nc <=? v)%Z && (v <? nc)%Z then dga_kernel u chid chim vrgd vrgm kdc i j v else u ^+ 2 / 2%:R * (chid i j + chim i j)) G k)).
Proof. exact sde_full_shell_ok. Qed.
Print Assumptions C74_full_with_shell.
(** one channel, with weights of the momenta: the weights enter in the core only *)
Theorem C74_channel : forall (F : fieldType) nx ny nz N (G : 'I_nx * 'I_ny * 'I_nz -> Z -> F) giwk, (forall k, giwk k = frow N (G k)) ->
  forall (beta u nq ur : F) ch qs dup wn nc ns vrg chi k, wn <> nil -> get_ur u ch = Ok ur -> ur ^+ 2 = u ^+ 2 -> size dup = size qs -> (0 <= nc)%Z -> (0 < ns)%Z -> fits_box (nc + ns) N wn ->
  schwinger_dyson_channel_q (2 * nc) (arr3 (size qs) (size wn) nc vrg) (arr2 (size qs) (size wn) chi) ch giwk beta u qs dup wn nq ns k =
  Ok (frow (nc + ns) (lattice_sde nq beta qs wn (fun i j v =>
     if (- nc <=? v)%Z && (v <? nc)%Z then seq.nth 0 dup i * (ur / 2%:R * (1 - (1 - ur * chi i j) * vrg i j v)) else ur / 2%:R * (1 - (1 - ur * chi i j))) G k)).
Proof. exact sde_channel_ok. Qed.
Print Assumptions C74_channel.
Theorem C74_channel_core : forall (F : fieldType) nx ny nz N (G : 'I_nx * 'I_ny * 'I_nz -> Z -> F) giwk, (forall k, giwk k = frow N (G k)) ->
  forall (beta u nq ur : F) ch qs dup wn niv vrg chi k, get_ur u ch = Ok ur -> size dup = size qs -> fits_box niv N wn ->
  schwinger_dyson_vrg_q (2 * niv) (arr3 (size qs) (size wn) niv vrg) (arr2 (size qs) (size wn) chi) giwk beta u ch qs dup wn nq k =
  Ok (frow niv (lattice_sde nq beta qs wn (fun i j v => seq.nth 0 dup i * (ur / 2%:R * (1 - (1 - ur * chi i j) * vrg i j v))) G k)).
Proof. exact sde_vrg_ok. Qed.
Print Assumptions C74_channel_core.
Theorem C74_double_counting : forall (F : fieldType) nx ny nz N (G : 'I_nx * 'I_ny * 'I_nz -> Z -> F) giwk, (forall k, giwk k = frow N (G k)) ->
  forall (u nq : F) qs dup wn nc ker k, wn <> nil -> size dup = size qs -> fits_box nc N wn ->
  schwinger_dyson_dc (2 * nc) (arr3 (size qs) (size wn) nc ker) giwk u qs dup wn nq k = Ok (frow nc (lattice_sde nq 1 qs wn (fun i j v => u * seq.nth 0 dup i * ker i j v) G k)).
Proof. exact sde_dc_ok. Qed.
Print Assumptions C74_double_counting.
(** Finding: weighting the irreducible momenta by their multiplicity is not the sum over the zone, even for a symmetric
    Green function and kernel (here mesh 3x1x1, inversion symmetry, k = 1). *)
Theorem C74_weighted_irreducible_sum_refuted : exists (G : 'I_3 * 'I_1 * 'I_1 -> Z -> rat) g irrq k,
  (forall k k' v, qpoint k' = point_op 3 1 1 "x-inv" (qpoint k) -> G k' v = G k v) /\
  BrillouinZone.make_kgrid 3 1 1 ["x-inv"%string] = Ok g /\ BrillouinZone.get_irrq_list g = Ok irrq /\
  schwinger_dyson_vrg_q 2 (arr3 (size irrq) 1 1 (fun _ _ _ => 0)) (arr2 (size irrq) 1 (fun _ _ => 0)) (fun k => frow 1 (G k)) 1 1 "dens" irrq
     (List.map (fun c => (Z.to_nat c)%:R) (BrillouinZone.irrk_count g)) [:: 0%Z] 3%:R k <>
  schwinger_dyson_vrg_q 2 (arr3 3 1 1 (fun _ _ _ => 0)) (arr2 3 1 (fun _ _ => 0)) (fun k => frow 1 (G k)) 1 1 "dens" (BrillouinZone.get_q_list g)
     [:: 1; 1; 1] [:: 0%Z] 3%:R k.
Proof. exact weighted_refuted. Qed.
Print Assumptions C74_weighted_irreducible_sum_refuted.

(** ** C75: the DGA self-energy from the ranks' results on irreducible momenta *)
Theorem C75_dga_self_energy : forall (F : fieldType) nx ny nz syms g irrq, (0 < nx)%nat -> (0 < ny)%nat -> (0 < nz)%nat -> List.Forall known syms ->
  BrillouinZone.make_kgrid (Z.of_nat nx) (Z.of_nat ny) (Z.of_nat nz) syms = Ok g -> BrillouinZone.get_irrq_list g = Ok irrq ->
  forall N (G : 'I_nx * 'I_ny * 'I_nz -> Z -> F) giwk, (forall k, giwk k = frow N (G k)) ->
  forall (beta u n : F) wn nc ns N1 Sig Sde, wn <> nil -> fits_box nc N wn -> (nc <= N1)%Z -> (0 <= ns)%Z ->
  forall (chid chim : Z * Z * Z -> nat -> F) (vrgd vrgm kdc : Z * Z * Z -> nat -> Z -> F),
  let symmetric := fun h : Z * Z * Z -> F => forall s k, List.In s syms -> on_mesh (Z.of_nat nx) (Z.of_nat ny) (Z.of_nat nz) k -> h (point_op (Z.of_nat nx) (Z.of_nat ny) (Z.of_nat nz) s k) = h k in
  (forall j v, symmetric (fun q => vrgd q j v)) -> (forall j v, symmetric (fun q => vrgm q j v)) -> (forall j v, symmetric (fun q => kdc q j v)) ->
  forall p order pd pm pk cd cm k, (0 < p)%Z -> Permutation order (arange 0 p) ->
  scatter (BrillouinZone.nk_irr g) p (List.map (fun q => mkseq (fun j => frow nc (vrgd q j)) (size wn)) irrq) = Ok pd ->
  scatter (BrillouinZone.nk_irr g) p (List.map (fun q => mkseq (fun j => frow nc (vrgm q j)) (size wn)) irrq) = Ok pm ->
  scatter (BrillouinZone.nk_irr g) p (List.map (fun q => mkseq (fun j => frow nc (kdc q j)) (size wn)) irrq) = Ok pk ->
  shape3 cd (Z.of_nat nx) (Z.of_nat ny) (Z.of_nat nz) -> (forall q, on_mesh (Z.of_nat nx) (Z.of_nat ny) (Z.of_nat nz) q -> at3 cd q = Some (mkseq (chid q) (size wn))) ->
  shape3 cm (Z.of_nat nx) (Z.of_nat ny) (Z.of_nat nz) -> (forall q, on_mesh (Z.of_nat nx) (Z.of_nat ny) (Z.of_nat nz) q -> at3 cm q = Some (mkseq (chim q) (size wn))) ->
  let qs := BrillouinZone.kmesh_ind_list (Z.of_nat nx) (Z.of_nat ny) (Z.of_nat nz) in
  dga_siwk_from_ranks (2 * nc) g pd pm cd cm pk giwk beta u wn p order (frow N1 Sig) (frow (nc + ns) Sde) n nc k =
  Ok (frow nc (fun v => lattice_sde (size qs)%:R beta qs wn
     (dga_kernel u (fun i => chid (qat qs i)) (fun i => chim (qat qs i)) (fun i => vrgd (qat qs i)) (fun i => vrgm (qat qs i)) (fun i => kdc (qat qs i))) G k v
     + (Sig v - Sde v) + u * n / 2%:R)).
Proof.
  move=> F nx ny nz syms g irrq Hx Hy Hz Hk Eg Ei N G giwk HG beta u n wn nc ns N1 Sig Sde Hw Hb H1 Hs chid chim vrgd vrgm kdc symm S1 S2 S3 p order pd pm pk cd cm k Hp Ho Ed Em Ek Shd Hd Shm Hm qs.
  exact: (from_ranks_ok Hx Hy Hz Hk Eg Ei HG beta u n Sig Sde Hw Hb H1 Hs S1 S2 S3 k Hp Ho Ed Em Ek Shd Hd Shm Hm).
Qed.
Print Assumptions C75_dga_self_energy.

(** ** C76: symmetries of the self-energy *)
Theorem C76_point_symmetry : forall (R : rcfType) nx ny nz (nq beta : R[i]) wn (Ker : Z * Z * Z -> nat -> Z -> R[i]) (G : 'I_nx * 'I_ny * 'I_nz -> Z -> R[i]) s,
  let qs := BrillouinZone.kmesh_ind_list (Z.of_nat nx) (Z.of_nat ny) (Z.of_nat nz) in
  has_symmetry G s -> (forall q j v, on_mesh (Z.of_nat nx) (Z.of_nat ny) (Z.of_nat nz) q -> Ker (point_op (Z.of_nat nx) (Z.of_nat ny) (Z.of_nat nz) s q) j v = Ker q j v) ->
  forall N niv giwk k k', wn <> nil -> fits_box niv N wn -> (forall k, giwk k = frow N (G k)) -> qpoint k' = point_op (Z.of_nat nx) (Z.of_nat ny) (Z.of_nat nz) s (qpoint k) ->
  schwinger_dyson_kernel_q (2 * niv) (arr3 (size qs) (size wn) niv (fun i => Ker (qat qs i))) giwk beta qs wn nq k' =
  schwinger_dyson_kernel_q (2 * niv) (arr3 (size qs) (size wn) niv (fun i => Ker (qat qs i))) giwk beta qs wn nq k.
Proof.
  move=> R nx ny nz nq beta wn Ker G s qs HG HK N niv giwk k k' Hw Hb HGk Hkk. rewrite !(sde_kernel_ok HGk) //. f_equal. apply: frow_ext => v _.
  exact: (sde_symmetric nq beta wn HG HK v Hkk).
Qed.
Print Assumptions C76_point_symmetry.
Theorem C76_conjugation : forall (R : rcfType) nx ny nz (nq beta : R) ql nw (Ker : nat -> nat -> Z -> R[i]) (G : 'I_nx * 'I_ny * 'I_nz -> Z -> R[i]) N niv giwk k,
  let wn := Matsubara.wn nw 0 false in (0 <= nw)%Z -> fits_box niv N wn -> (forall k, giwk k = frow N (G k)) ->
  (forall k v, G k (- v - 1)%Z = conjc (G k v)) ->
  (forall i j v, (i < size ql)%nat -> (j < size wn)%nat -> Ker i (size wn - j.+1)%nat (- v - 1)%Z = conjc (Ker i j v)) ->
  exists S, schwinger_dyson_kernel_q (2 * niv) (arr3 (size ql) (size wn) niv Ker) giwk (beta%:C)%C ql wn (nq%:C)%C k = Ok (frow niv S) /\ forall v, S (- v - 1)%Z = conjc (S v).
Proof. exact sde_conj_code. Qed.
Print Assumptions C76_conjugation.

(** ** C77: lattice ladder.  arr2 nq nw f is the array with entry f i j at momentum i and bosonic frequency j. *)
Theorem C77_bethe_salpeter : forall (F : fieldType) n (g : lnp F 'M[F]_n) nq nw gam (x : nat -> nat -> 'rV[F]_n) (chi : nat -> nat -> 'M[F]_n), l_mat g = mkseq gam nw ->
  (forall i j, (i < nq)%nat -> (j < nw)%nat -> forall v, x i j 0 v != 0) ->
  get_gchir_from_gamma_loc_q g (arr2 nq nw x) = Ok (arr2 nq nw chi) <-> forall i j, (i < nq)%nat -> (j < nw)%nat -> bethe_salpeter (x i j) (gam j) (chi i j).
Proof. exact gchir_q. Qed.
Print Assumptions C77_bethe_salpeter.
(** For the vertex continued by U on the full box the core computation returns the physical susceptibility of the full box
    and the three-leg vertex (one outside the core). *)
Theorem C77_ladder : forall (F : fieldType) nc ns nq nw (g : lnp F 'M[F]_(nc.*2)) ur gam (x : nat -> nat -> 'rV[F]_((nc + ns).*2)) (xc : nat -> nat -> 'rV[F]_(nc.*2)) G (chi : nat -> nat -> 'M[F]_((nc + ns).*2)) cu cc,
  l_mat g = mkseq gam nw -> u_r g = Ok ur -> l_beta g != 0 ->
  (forall i j, (i < nq)%nat -> (j < nw)%nat -> forall v, x i j 0 v != 0) -> (forall i j, (i < nq)%nat -> (j < nw)%nat -> core_part (x i j) (xc i j)) ->
  (forall j, (j < nw)%nat -> u_padded (gam j) (ur / l_beta g ^+ 2) (G j)) -> (forall i j, (i < nq)%nat -> (j < nw)%nat -> bethe_salpeter (x i j) (G j) (chi i j)) ->
  (forall i j, (i < nq)%nat -> (j < nw)%nat -> phys (l_beta g) (chi i j) != 0) ->
  (forall i j, (i < nq)%nat -> (j < nw)%nat -> cu i j = (l_beta g ^+ 2)^-1 * \sum_v x i j 0 v) -> (forall i j, (i < nq)%nat -> (j < nw)%nat -> cc i j = (l_beta g ^+ 2)^-1 * \sum_v xc i j 0 v) ->
  (forall i j, (i < nq)%nat -> (j < nw)%nat -> 1 - ur * phys (l_beta g) (chi i j) != 0) ->
  exists v, construct_vrg_and_chi_q_urange g (arr2 nq nw xc) (arr2 nq nw cu) (arr2 nq nw cc) (l_beta g) (l_u g) = Ok (arr2 nq nw v, arr2 nq nw (fun i j => phys (l_beta g) (chi i j))) /\
   forall i j, (i < nq)%nat -> (j < nw)%nat -> exists w : 'I_((nc + ns).*2) -> F,
     (forall a A, core_of a A -> w A = v i j 0 a) /\ (forall A, ~~ in_core A -> w A = 1) /\ three_leg (l_beta g) ur (x i j) (chi i j) w.
Proof.
  move=> F nc ns nq nw g ur gam x xc G chi cu cc Eg Hur Hb Hx Hc HG HB Hp Hcu Hcc Hn.
  have [v [E H]] := construct_ok Eg Hur Hb Hx Hc HG HB Hp Hcu Hcc Hn. exists v. split=> // i j Hi Hj. exists (vrg_ext (v i j)).
  have [h1 h2] := vrg_extP ns (v i j). split=> //. split=> //. exact: H.
Qed.
Print Assumptions C77_ladder.
(** If the ladder diverges at one point, 1 = u_r chi, numpy's LinAlgError is raised. *)
Theorem C77_divergence_raises : forall (F : fieldType) nc ns nq nw (g : lnp F 'M[F]_(nc.*2)) ur gam (x : nat -> nat -> 'rV[F]_((nc + ns).*2)) (xc : nat -> nat -> 'rV[F]_(nc.*2)) G (chi : nat -> nat -> 'M[F]_((nc + ns).*2)) cu cc,
  l_mat g = mkseq gam nw -> u_r g = Ok ur -> l_beta g != 0 ->
  (forall i j, (i < nq)%nat -> (j < nw)%nat -> forall v, x i j 0 v != 0) -> (forall i j, (i < nq)%nat -> (j < nw)%nat -> core_part (x i j) (xc i j)) ->
  (forall j, (j < nw)%nat -> u_padded (gam j) (ur / l_beta g ^+ 2) (G j)) -> (forall i j, (i < nq)%nat -> (j < nw)%nat -> bethe_salpeter (x i j) (G j) (chi i j)) ->
  forall i j, (i < nq)%nat -> (j < nw)%nat -> 1 - ur * phys (l_beta g) (chi i j) = 0 ->
  construct_vrg_and_chi_q_urange g (arr2 nq nw xc) (arr2 nq nw cu) (arr2 nq nw cc) (l_beta g) (l_u g) = Raise LinAlgError.
Proof. move=> F nc ns nq nw g ur gam x xc G chi cu cc Eg Hur Hb Hx Hc HG HB i j Hi Hj Hz. exact: (construct_singular cu cc Eg Hur Hb Hx Hc HG HB Hi Hj Hz). Qed.
Print Assumptions C77_divergence_raises.

(** ** C78: ladder vertex from its stored components *)
Theorem C78_ladder_vertex : forall (F : fieldType) nc ns (beta ur : F) (gam : 'M[F]_(nc.*2)) (chi0 : 'rV[F]_((nc + ns).*2)) G chi f (chi0c : 'rV[F]_(nc.*2)) X,
  beta != 0 -> (forall i, chi0 0 i != 0) -> u_padded gam (ur / beta ^+ 2) G -> bethe_salpeter chi0 G chi -> core_part chi0 chi0c ->
  gchi_aux_core_from_gammar_w beta ur gam chi0c = Ok X -> full_vertex chi0 f chi -> (forall i j, gam i j = gam j i) ->
  core_block f ((beta ^+ 2)^-1 *: (ladder_f1 X chi0c beta + (1 - ur * phys beta chi) *: ladder_f2 (vrg_row chi0c X) ur)).
Proof.
  move=> F nc ns beta ur gam chi0 G chi f chi0c X hb h0 hG hB hc hX hF Hs. apply: (ladder_vertex_core hb h0 hG hB hc hX hF). apply/matrixP => i j. by rewrite mxE Hs.
Qed.
Print Assumptions C78_ladder_vertex.
Theorem C78_channels : forall (F : fieldType) n (f1 f2 : 'M[F]_n) u chi,
  f_magn_qw f1 f2 u chi = f1 + (1 - u * - 1 * chi) *: f2 /\ f_dens_qw f1 f2 u chi = f1 + (1 - u * 1 * chi) *: f2.
Proof. move=> F n f1 f2 u chi. split; [exact: f_magn_eq|exact: f_dens_eq]. Qed.
Print Assumptions C78_channels.
(** Finding: the left leg is replaced by the right one, so for a vertex that is not symmetric in its two frequencies
    the result deviates from the vertex by this term. *)
Theorem C78_asymmetric_vertex_finding : forall (F : fieldType) nc ns (beta ur : F) (gam : 'M[F]_(nc.*2)) (chi0 : 'rV[F]_((nc + ns).*2)) G chi f (chi0c : 'rV[F]_(nc.*2)) X,
  beta != 0 -> (forall i, chi0 0 i != 0) -> u_padded gam (ur / beta ^+ 2) G -> bethe_salpeter chi0 G chi -> core_part chi0 chi0c ->
  gchi_aux_core_from_gammar_w beta ur gam chi0c = Ok X -> full_vertex chi0 f chi -> forall i j I J, core_of i I -> core_of j J ->
  f I J - (((beta ^+ 2)^-1 *: (ladder_f1 X chi0c beta + (1 - ur * phys beta chi) *: ladder_f2 (vrg_row chi0c X) ur)) : 'M[F]_(nc.*2)) i j =
  (beta ^+ 2)^-1 * ur * (1 - ur * phys beta chi) * ((\sum_k X i k) / chi0c 0 i) * ((\sum_k X k j - \sum_k X j k) / chi0c 0 j).
Proof. exact ladder_deviation. Qed.
Print Assumptions C78_asymmetric_vertex_finding.

(** ** C79: double counting kernel *)
Theorem C79_dc_kernel : forall (F : fieldType) nc ns nq nw (gm : lnp F 'M[F]_(nc.*2)) ur gam (x0 : nat -> 'rV[F]_((nc + ns).*2)) (x : nat -> nat -> 'rV[F]_((nc + ns).*2)) G chi f,
  u_r gm = Ok ur -> size (l_wn gm) = nw -> l_mat gm = mkseq gam nw ->
  (forall j, (j < nw)%nat -> (forall v, x0 j 0 v != 0) /\ u_padded (gam j) (ur / l_beta gm ^+ 2) (G j) /\ bethe_salpeter (x0 j) (G j) (chi j) /\ full_vertex (x0 j) (f j) (chi j)) ->
  exists ker, construct_dc_kernel gm (mkseq x0 nw) (arr2 nq nw (fun i j => rv2l (x i j))) (Z.of_nat nc) = Ok (arr2 nq nw (fun i j => rv2l (ker i j))) /\
   forall i j a A, (j < nw)%nat -> core_of a A -> ker i j 0 a = ur * \sum_B f j A B * x i j 0 B.
Proof. exact dc_kernel_spec. Qed.
Print Assumptions C79_dc_kernel.

(** ** C80: local limit.  If the bubble does not depend on q (and there is no lambda correction) the DGA self-energy is
    the DMFT self-energy, at every k, for every Green function, any number of ranks and reduction order. *)
Theorem C80_local_limit : forall (F : fieldType) nx ny nz N (G : 'I_nx * 'I_ny * 'I_nz -> Z -> F) giwk nc ns (gd gm : lnp F 'M[F]_(nc.*2)) wn (beta u n : F)
  (gamd gamm : nat -> 'M[F]_(nc.*2)) (x : nat -> 'rV[F]_((nc + ns).*2)) (Gd Gm chid chim : nat -> 'M[F]_((nc + ns).*2)) N1 (Sig : Z -> F),
  let nw := size wn in let qs := BrillouinZone.kmesh_ind_list (Z.of_nat nx) (Z.of_nat ny) (Z.of_nat nz) in let nq := size qs in
  let nk := #|{: 'I_nx * 'I_ny * 'I_nz}|%:R : F in let gloc := frow N (fun v => (\sum_k G k v) / nk) in
  let xc := fun j => cut_v_rv (x j) : 'rV[F]_(nc.*2) in
  let c0u := fun j => (beta ^+ 2)^-1 * \sum_v x j 0 v in let c0c := fun j => (beta ^+ 2)^-1 * \sum_v xc j 0 v in
  (forall k, giwk k = frow N (G k)) -> nk != 0 -> (2%:R : F) != 0 -> beta != 0 ->
  wn <> nil -> fits_box (Z.of_nat nc + Z.of_nat ns) N wn -> (Z.of_nat nc <= N1)%Z ->
  gd = Lnp "dens" beta u wn (mkseq gamd nw) -> gm = Lnp "magn" beta u wn (mkseq gamm nw) ->
  (forall j, (j < nw)%nat -> forall v, x j 0 v != 0) ->
  (forall j, (j < nw)%nat -> u_padded (gamd j) (u / beta ^+ 2) (Gd j)) -> (forall j, (j < nw)%nat -> u_padded (gamm j) (- u / beta ^+ 2) (Gm j)) ->
  (forall j, (j < nw)%nat -> bethe_salpeter (x j) (Gd j) (chid j)) -> (forall j, (j < nw)%nat -> bethe_salpeter (x j) (Gm j) (chim j)) ->
  (forall j, (j < nw)%nat -> phys beta (chid j) != 0) -> (forall j, (j < nw)%nat -> phys beta (chim j) != 0) ->
  (forall j, (j < nw)%nat -> 1 - u * phys beta (chid j) != 0) -> (forall j, (j < nw)%nat -> 1 + u * phys beta (chim j) != 0) ->
  forall p order k, (0 < p)%Z -> Permutation order (arange 0 p) -> exists vd vm kdc siw_sde,
  construct_vrg_and_chi_q_urange gd (arr2 nq nw (fun _ => xc)) (arr2 nq nw (fun _ => c0u)) (arr2 nq nw (fun _ => c0c)) beta u = Ok (arr2 nq nw (fun _ => vd), arr2 nq nw (fun _ j => phys beta (chid j))) /\
  construct_vrg_and_chi_q_urange gm (arr2 nq nw (fun _ => xc)) (arr2 nq nw (fun _ => c0u)) (arr2 nq nw (fun _ => c0c)) beta u = Ok (arr2 nq nw (fun _ => vm), arr2 nq nw (fun _ j => phys beta (chim j))) /\
  construct_dc_kernel gm (mkseq x nw) (arr2 nq nw (fun _ j => rv2l (x j))) (Z.of_nat nc) = Ok kdc /\
  (forall j, (j < nw)%nat -> get_vrg_and_chir_urange_w beta u (gamd j) (c0c j) (c0u j) (xc j) true = Ok (vd j, phys beta (chid j)) /\
      get_vrg_and_chir_urange_w beta (- u) (gamm j) (c0c j) (c0u j) (xc j) true = Ok (vm j, phys beta (chim j))) /\
  schwinger_dyson_full beta u wn (mkseq (fun j => rv2l (vd j)) nw) (mkseq (fun j => rv2l (vm j)) nw) (mkseq (fun j => phys beta (chid j)) nw) (mkseq (fun j => phys beta (chim j)) nw) gloc n (Z.of_nat ns) = Ok siw_sde /\
  dga_siwk (2 * Z.of_nat nc) (arr2 nq nw (fun _ j => rv2l (vd j))) (arr2 nq nw (fun _ j => rv2l (vm j))) (arr2 nq nw (fun _ j => phys beta (chid j))) (arr2 nq nw (fun _ j => phys beta (chim j))) kdc
    giwk beta u qs wn (Z.of_nat nq) p order (frow N1 Sig) siw_sde n (Z.of_nat nc) k = Ok (frow (Z.of_nat nc) Sig).
Proof.
  move=> F nx ny nz N G giwk nc ns gd gm wn beta u n gamd gamm x Gd Gm chid chim N1 Sig nw qs nq nk gloc xc c0u c0c HG Hk H2 Hb Hw Hbox H1 Ed Em Hx HGd HGm HBd HBm Hpd Hpm Hnd Hnm p order k Hp Ho.
  exact: (local_limit n Sig HG Hk H2 Hb Hw Hbox H1 Ed Em Hx HGd HGm HBd HBm Hpd Hpm Hnd Hnm k Hp Ho).
Qed.
Print Assumptions C80_local_limit.
(** a case satisfying the hypotheses: constant vertices U and -U, bubble 1, U = beta = 1, one core and one shell frequency *)
Example C80_case : let one := const_mx 1 : 'rV[rat]_4 in
  u_padded (nc := 1) (ns := 1) (const_mx 1) (1 / 1 ^+ 2) (const_mx 1 : 'M[rat]_4) /\ u_padded (nc := 1) (ns := 1) (const_mx (- 1)) (- 1 / 1 ^+ 2) (const_mx (- 1) : 'M[rat]_4) /\
  bethe_salpeter one (const_mx 1) (1%:M - const_mx (1 / 5%:R)) /\ bethe_salpeter one (const_mx (- 1)) (1%:M - const_mx (1 / 3%:R)) /\
  phys 1 (1%:M - const_mx (1 / 5%:R) : 'M[rat]_4) = 4%:R / 5%:R /\ phys 1 (1%:M - const_mx (1 / 3%:R) : 'M[rat]_4) = - (4%:R / 3%:R) /\
  fits_box (1 + 1)%Z 3%Z [:: (-1)%Z; 0%Z; 1%Z] /\ (#|{: 'I_3 * 'I_2 * 'I_1}|%:R : rat) != 0.
Proof. exact local_limit_case. Qed.
(** C34, C74-C79: the bosonic frequencies of a run with one positive frequency, two core frequencies and four stored ones
    satisfy the window hypothesis; C75/C76: [C74_weighted_irreducible_sum_refuted] exhibits a non-constant symmetric function
    on a mesh with its grid; C77-C79: the vertices and bubbles of [C80_case]. *)
Example C34_case : Matsubara.wn 1 0 false <> nil /\ fits_box 2 4 (Matsubara.wn 1 0 false) /\ fits_box (2 + 1) 4 (Matsubara.wn 1 0 false).
Proof. split=> //. by split; (split; [lia|]) => w H; simpl in H; lia. Qed.
