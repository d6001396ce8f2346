(** C84, C85: from the vertices computed on every rank, through the rank files, to the assembled pairing and optics vertices
    (four_point.py save_and_load, mpi_aux.py, pairing_vertex.py, optics.py). *)
From mathcomp Require Import all_ssreflect all_algebra.
From mathcomp.real_closed Require Import complex.
From Coq Require Import ZArith Lia String.
From Verif Require Import Base.PyBase Base.PyFacts Base.Arr Model.Matsubara Model.BrillouinZone Model.RankFiles Model.VertexBuild Spec.BZSpec Spec.RankSpec Spec.PairingSpec
  Proofs.VertexBuildP Proofs.VertexBuildExP.
Import GRing.Theory Num.Theory.
Set Implicit Arguments. Unset Strict Implicit. Unset Printing Implicit Defensive.
Local Open Scope ring_scope.
Local Open Scope complex_scope.

(** ** C84: the pairing vertex.  Whatever the number of ranks and the interleaving of their writes: at every momentum of the
    full zone the singlet (triplet) vertex is the Hermitian part of the crossed combination 3/2 F_magn - 1/2 F_dens
    (1/2 F_magn + 1/2 F_dens), with the ladder vertices F built from the components that were computed on the irreducible momenta. *)
Theorem C84_pairing_vertex : forall (R : rcfType) nx ny nz syms g, (0 < nx)%Z -> (0 < ny)%Z -> (0 < nz)%Z -> List.Forall known syms -> make_kgrid nx ny nz syms = Ok g ->
  forall irrq, get_irrq_list g = Ok irrq ->
  forall (c : cfg) (d : vdata R[i]) p path name fs0 todo sched s (u : R[i]) niwx chim chid F1m F2m F1d F2d Xm Xd,
  cfg_ok c -> data_ok c d (nk_irr g) -> (0 < p)%Z -> (do_vertex c = true -> (0 < niv_core c)%Z) ->
  written (fun x => - x) c d path name (nk_irr g) p fs0 todo sched s -> do_pairing c = true ->
  holds_values (f1_magn d) irrq (niw_core c) (niv_core c) F1m -> holds_values (f2_magn d) irrq (niw_core c) (niv_core c) F2m ->
  holds_values (f1_dens d) irrq (niw_core c) (niv_core c) F1d -> holds_values (f2_dens d) irrq (niw_core c) (niv_core c) F2d ->
  point_symmetric nx ny nz syms F1m -> point_symmetric nx ny nz syms F2m -> point_symmetric nx ny nz syms F1d -> point_symmetric nx ny nz syms F2d ->
  shape2 chim (nx * ny * nz) (2 * niwx + 1) -> shape2 chid (nx * ny * nz) (2 * niwx + 1) -> (2 * niv_pp c - 1 <= niwx)%Z ->
  (forall k w, on_mesh nx ny nz k -> (- niwx <= w <= niwx)%Z -> get2 chim (lin ny nz k) (niwx + w) = Some (Xm k w) /\ get2 chid (lin ny nz k) (niwx + w) = Some (Xd k w)) ->
  (forall k w, Xm k (- w)%Z = conjc (Xm k w)) -> (forall k w, Xd k (- w)%Z = conjc (Xd k w)) -> conjc u = u ->
  exists f1m f2m f1d f2d r,
    [/\ load_pairing 0 (fun x y => x + y) (fun x => 1 / 2%:R * x) (@conjc R) "f1_magn" (j_fs s) path name p (nk_irr g) (niv_pp c) = Ok f1m,
        load_pairing 0 (fun x y => x + y) (fun x => 1 / 2%:R * x) (@conjc R) "f2_magn" (j_fs s) path name p (nk_irr g) (niv_pp c) = Ok f2m,
        load_pairing 0 (fun x y => x + y) (fun x => 1 / 2%:R * x) (@conjc R) "f1_dens" (j_fs s) path name p (nk_irr g) (niv_pp c) = Ok f1d,
        load_pairing 0 (fun x y => x + y) (fun x => 1 / 2%:R * x) (@conjc R) "f2_dens" (j_fs s) path name p (nk_irr g) (niv_pp c) = Ok f2d &
        build_pairing_vertex g u (niv_pp c) f1m f2m f1d f2d chim chid = Ok r] /\ zlen r = (nx * ny * nz)%Z /\
    forall k, on_mesh nx ny nz k -> exists fs ft, zget r (lin ny nz k) = Some (fs, ft) /\ shape2 fs (2 * niv_pp c) (2 * niv_pp c) /\ shape2 ft (2 * niv_pp c) (2 * niv_pp c) /\
      forall v vp, (- niv_pp c <= v < niv_pp c)%Z -> (- niv_pp c <= vp < niv_pp c)%Z ->
        get2 fs (niv_pp c + v) (niv_pp c + vp) = Some (herm (crossed (fun w v v' => 3%:R / 2%:R * ladder (- u) Xm F1m F2m k w v v' - 1 / 2%:R * ladder u Xd F1d F2d k w v v')) v vp) /\
        get2 ft (niv_pp c + v) (niv_pp c + vp) = Some (herm (crossed (fun w v v' => 1 / 2%:R * ladder (- u) Xm F1m F2m k w v v' + 1 / 2%:R * ladder u Xd F1d F2d k w v v')) v vp).
Proof. move=> R nx ny nz syms g Hx Hy Hz Hk Eg irrq Eq. exact: (pairing_end_to_end Hx Hy Hz Hk Eg Eq). Qed.
Print Assumptions C84_pairing_vertex.
(** The Hermitian part is Hermitian, so the assembled vertices are: V(v,v') = conj V(v',v). *)
Theorem C84_hermitian : forall (R : rcfType) (P : Z -> Z -> R[i]) v vp, herm P v vp = conjc (herm P vp v).
Proof.
  move=> R P v vp. rewrite /herm. rewrite -[RHS]/((RMorphism (@conjc_is_rmorphism R)) _) fmorph_div rmorphD rmorph_nat /= conjcK. by rewrite addrC.
Qed.
Print Assumptions C84_hermitian.
(** When the crossed combination is Hermitian already (the exact vertex is), the assembled vertex equals it: nothing is lost. *)
Theorem C84_exact_when_hermitian : forall (R : rcfType) (P : Z -> Z -> R[i]) v vp, P v vp = conjc (P vp v) -> herm P v vp = P v vp.
Proof. move=> R P v vp E. rewrite /herm -E -mulr2n -[_ *+ 2]mulr_natr mulfK // pnatr_eq0. by []. Qed.
Print Assumptions C84_exact_when_hermitian.

(** ** C85: the optics vertex.  For bosonic frequency w >= 0 the assembled vertex is -1/2 F_dens - 3/2 F_magn at (w; v, v-wc);
    every row with w < 0 is zero, because the sign in the group names is dropped when the files are read. *)
Theorem C85_optics_vertex_nonneg : forall (R : rcfType) nx ny nz syms g, (0 < nx)%Z -> (0 < ny)%Z -> (0 < nz)%Z -> List.Forall known syms -> make_kgrid nx ny nz syms = Ok g ->
  forall irrq, get_irrq_list g = Ok irrq ->
  forall (c : cfg) (d : vdata R[i]) p path name fs0 todo sched s (u : R[i]) niwx chim chid F1m F2m F1d F2d Xm Xd,
  cfg_ok c -> data_ok c d (nk_irr g) -> (0 < p)%Z -> (do_vertex c = true -> (0 < niv_core c)%Z) ->
  written (fun x => - x) c d path name (nk_irr g) p fs0 todo sched s -> do_vertex c = true ->
  holds_values (f1_magn d) irrq (niw_core c) (niv_core c) F1m -> holds_values (f2_magn d) irrq (niw_core c) (niv_core c) F2m ->
  holds_values (f1_dens d) irrq (niw_core c) (niv_core c) F1d -> holds_values (f2_dens d) irrq (niw_core c) (niv_core c) F2d ->
  point_symmetric nx ny nz syms F1m -> point_symmetric nx ny nz syms F2m -> point_symmetric nx ny nz syms F1d -> point_symmetric nx ny nz syms F2d ->
  shape2 chim (nx * ny * nz) (2 * niwx + 1) -> shape2 chid (nx * ny * nz) (2 * niwx + 1) -> (niw_vert c <= niwx)%Z ->
  (forall k w, on_mesh nx ny nz k -> (- niwx <= w <= niwx)%Z -> get2 chim (lin ny nz k) (niwx + w) = Some (Xm k w) /\ get2 chid (lin ny nz k) (niwx + w) = Some (Xd k w)) ->
  exists f1m f2m f1d f2d r,
    [/\ load_optics 0 "f1_magn" (j_fs s) path name p (nk_irr g) (niw_vert c) (niw_cond c) (niv_vert c) = Ok f1m,
        load_optics 0 "f2_magn" (j_fs s) path name p (nk_irr g) (niw_vert c) (niw_cond c) (niv_vert c) = Ok f2m,
        load_optics 0 "f1_dens" (j_fs s) path name p (nk_irr g) (niw_vert c) (niw_cond c) (niv_vert c) = Ok f1d,
        load_optics 0 "f2_dens" (j_fs s) path name p (nk_irr g) (niw_vert c) (niw_cond c) (niv_vert c) = Ok f2d &
        build_f_cond g u (niw_vert c) f1m f2m f1d f2d chim chid = Ok r] /\ zlen r = (nx * ny * nz)%Z /\
    forall k, on_mesh nx ny nz k -> exists f, zget r (lin ny nz k) = Some f /\ shape3 f (2 * niw_vert c + 1) (niw_cond c + 1) (2 * niv_vert c) /\
      (forall w wc v, (0 <= w <= niw_vert c)%Z -> (0 <= wc <= niw_cond c)%Z -> (- niv_vert c <= v < niv_vert c)%Z ->
        get3 f (niw_vert c + w) wc (niv_vert c + v) = Some (- 1 / 2%:R * ladder u Xd F1d F2d k w v (v - wc) - 3%:R / 2%:R * ladder (- u) Xm F1m F2m k w v (v - wc))) /\
      (forall w wc v, (- niw_vert c <= w < 0)%Z -> (0 <= wc <= niw_cond c)%Z -> (- niv_vert c <= v < niv_vert c)%Z -> get3 f (niw_vert c + w) wc (niv_vert c + v) = Some 0).
Proof. move=> R nx ny nz syms g Hx Hy Hz Hk Eg irrq Eq. exact: (optics_end_to_end Hx Hy Hz Hk Eg Eq). Qed.
Print Assumptions C85_optics_vertex_nonneg.

(** A case: 4x4 square lattice (six irreducible momenta), niw = niv = 2, three ranks. *)
Definition ex_cfg : cfg := {| niw_core := 2; niv_core := 2; niv_pp := 1; do_pairing := true; do_vertex := true; save_fq := true; niw_vert := 1; niw_cond := 1; niv_vert := 1 |}.
Lemma ex_cfg_ok : cfg_ok ex_cfg. Proof. by vm_compute; intuition discriminate. Qed.
Definition ex_code (q : point) : Z := let '(x, y, z) := q in (x * (4 - x) + y * (4 - y))%Z.
Definition ex_val (R : rcfType) (m w v v' : Z) : R[i] := (Z.to_nat (m + 2 * v + 5 * v' + 20 * (w + 4))).+1%:R.
Definition ex_F (R : rcfType) (q : point) : Z -> Z -> Z -> R[i] := ex_val R (ex_code q).
Definition ex_X (R : rcfType) (k : point) (w : Z) : R[i] := let '(x, y, _) := k in (Z.to_nat (x + 2 * y) + Z.abs_nat w)%nat%:R.
Definition ex_chi (R : rcfType) : list (list R[i]) := List.map (fun k => List.map (ex_X R k) (arange (- 2) 3)) (kmesh_ind_list 4 4 1).
Lemma ex_sym R : point_symmetric 4 4 1 two_dimensional_square_symmetries (ex_F R).
Proof.
  move=> s [[x y] z] Hs [Hx [Hy Hz]]. have Ex : (x = 0 \/ x = 1 \/ x = 2 \/ x = 3)%Z by lia. have Ey : (y = 0 \/ y = 1 \/ y = 2 \/ y = 3)%Z by lia.
  rewrite /ex_F; congr (ex_val R _).
  case: Hs => [<-|[<-|[<-|//]]]; (case: Ex => [->|[->|[->| ->]]]; case: Ey => [->|[->|[->| ->]]]); reflexivity.
Qed.
Lemma ex_chi_ok R k w : on_mesh 4 4 1 k -> (- 2 <= w <= 2)%Z -> get2 (ex_chi R) (lin 4 1 k) (2 + w) = Some (ex_X R k w).
Proof.
  move: k => [[x y] z] [Hx [Hy Hz]] Hw. have Ex : (x = 0 \/ x = 1 \/ x = 2 \/ x = 3)%Z by lia. have Ey : (y = 0 \/ y = 1 \/ y = 2 \/ y = 3)%Z by lia. have -> : z = 0%Z by lia.
  rewrite /get2 /ex_chi zget_map (_ : zget (kmesh_ind_list 4 4 1) (lin 4 1 (x, y, 0%Z)) = Some (x, y, 0%Z)).
    cbn [option_map obind]. have -> : (2 + w = w - (- 2))%Z by lia. apply: zget_map_arange. lia.
  case: Ex => [->|[->|[->| ->]]]; case: Ey => [->|[->|[->| ->]]]; reflexivity.
Qed.
Example C84_C85_case : forall R : rcfType, exists g irrq (d : vdata R[i]) fs0 todo sched s,
  [/\ make_kgrid 4 4 1 two_dimensional_square_symmetries = Ok g, get_irrq_list g = Ok irrq, nk_irr g = 6%Z, data_ok ex_cfg d (nk_irr g) &
      written (fun x => - x) ex_cfg d "out/" "Qiw" (nk_irr g) 3 fs0 todo sched s] /\
  [/\ holds_values (f1_magn d) irrq 2 2 (ex_F R), holds_values (f2_magn d) irrq 2 2 (ex_F R), holds_values (f1_dens d) irrq 2 2 (ex_F R) & holds_values (f2_dens d) irrq 2 2 (ex_F R)] /\
  [/\ shape2 (ex_chi R) 16 5, (2 * niv_pp ex_cfg - 1 <= 2)%Z, (forall k w, ex_X R k (- w)%Z = conjc (ex_X R k w)) & conjc (2%:R : R[i]) = 2%:R].
Proof.
  move=> R. have [g [irrq [Eg [Eq [E6 L6]]]]] : exists g irrq, make_kgrid 4 4 1 two_dimensional_square_symmetries = Ok g /\ get_irrq_list g = Ok irrq /\ nk_irr g = 6%Z /\ zlen irrq = 6%Z.
    by do 2 eexists; split; [vm_compute; reflexivity|]; split; [vm_compute; reflexivity|].
  have [d [fs0 [todo [sched [s [Hd [W [V1 [V2 [V3 V4]]]]]]]]]] := @run_exists R ex_cfg irrq 3 "out/" "Qiw" (ex_F R) (ex_F R) (ex_F R) (ex_F R) ex_cfg_ok ltac:(lia) ltac:(by []).
  rewrite L6 in Hd W. exists g, irrq, d, fs0, todo, sched, s. rewrite E6. split; first by split. split; first by split.
  split; [|by []| |exact: (rmorph_nat (RMorphism (@conjc_is_rmorphism R)))].
  - split; first by []. move=> r H. apply List.in_map_iff in H. case: H => k [<- _]. by [].
  - move=> [[x y] z] w. rewrite /ex_X -[RHS]/((RMorphism (@conjc_is_rmorphism R)) _) rmorph_nat. by case: w.
Qed.

(** The property itself ("the assembled vertex is the combination at every bosonic frequency of the box") is refuted on this case: at
    w = -1 the combination is -4 F (1 + ..) <> 0 but the assembled entry is 0. *)
Theorem C85_refuted : forall R : rcfType, exists g irrq (c : cfg) (d : vdata R[i]) fs0 todo sched s chi (F : point -> Z -> Z -> Z -> R[i]) X f1m f2m f1d f2d r f,
  [/\ make_kgrid 4 4 1 two_dimensional_square_symmetries = Ok g, get_irrq_list g = Ok irrq, cfg_ok c, data_ok c d (nk_irr g) & written (fun x => - x) c d "out/" "Qiw" (nk_irr g) 3 fs0 todo sched s] /\
  [/\ holds_values (f1_magn d) irrq (niw_core c) (niv_core c) F, holds_values (f2_magn d) irrq (niw_core c) (niv_core c) F, holds_values (f1_dens d) irrq (niw_core c) (niv_core c) F & holds_values (f2_dens d) irrq (niw_core c) (niv_core c) F] /\
  [/\ load_optics 0 "f1_magn" (j_fs s) "out/" "Qiw" 3 (nk_irr g) (niw_vert c) (niw_cond c) (niv_vert c) = Ok f1m, load_optics 0 "f2_magn" (j_fs s) "out/" "Qiw" 3 (nk_irr g) (niw_vert c) (niw_cond c) (niv_vert c) = Ok f2m,
      load_optics 0 "f1_dens" (j_fs s) "out/" "Qiw" 3 (nk_irr g) (niw_vert c) (niw_cond c) (niv_vert c) = Ok f1d, load_optics 0 "f2_dens" (j_fs s) "out/" "Qiw" 3 (nk_irr g) (niw_vert c) (niw_cond c) (niv_vert c) = Ok f2d &
      build_f_cond g 0 (niw_vert c) f1m f2m f1d f2d chi chi = Ok r] /\
  let k := (1, 2, 0)%Z in let w := (-1)%Z in
  [/\ zget r (lin 4 1 k) = Some f, (- niw_vert c <= w <= niw_vert c)%Z, get3 f (niw_vert c + w) 0 (niv_vert c + 0) = Some 0 &
      - 1 / 2%:R * ladder 0 X F F k w 0 0 - 3%:R / 2%:R * ladder (- 0) X F F k w 0 0 != 0].
Proof.
  move=> R. have [g [irrq [d [fs0 [todo [sched [s [[Eg Eq E6 Hd W] [[V1 V2 V3 V4] [Sc _ _ _]]]]]]]]]] := C84_C85_case R.
  have Hk : List.Forall known two_dimensional_square_symmetries by rewrite /two_dimensional_square_symmetries; repeat constructor; rewrite /known /=; intuition.
  have S := @ex_sym R.
  have [f1m [f2m [f1d [f2d [r [[L1 L2 L3 L4 B] [_ G]]]]]]] := @C85_optics_vertex_nonneg R 4 4 1 _ g ltac:(lia) ltac:(lia) ltac:(lia) Hk Eg irrq Eq ex_cfg d 3 _ _ fs0 todo sched s 0 2 (ex_chi R) (ex_chi R) _ _ _ _ (ex_X R) (ex_X R)
    ex_cfg_ok Hd ltac:(lia) ltac:(by []) W erefl V1 V2 V3 V4 S S S S Sc Sc ltac:(by []) (fun k w Hm Hw => conj (ex_chi_ok R Hm Hw) (ex_chi_ok R Hm Hw)).
  have [f [Ef [_ [_ Gn]]]] := G (1, 2, 0)%Z ltac:(rewrite /on_mesh; lia).
  exists g, irrq, ex_cfg, d, fs0, todo, sched, s, (ex_chi R), (ex_F R), (ex_X R), f1m, f2m, f1d, f2d, r, f.
  split; first by split=> //; exact: ex_cfg_ok. split; first by split. split; first by split.
  split=> //; first by apply: Gn.
  rewrite /ladder oppr0 mul0r subr0 mul1r -mulrBl mulf_neq0 //.
    by rewrite mulN1r -opprD oppr_eq0 -{1}[2%:R^-1]mul1r -mulrDl -[1 + _](natrD _ 1 3) mulf_neq0 // ?invr_eq0 pnatr_eq0.
  by rewrite /ex_F /ex_val -natrD pnatr_eq0.
Qed.
Print Assumptions C85_refuted.
