(** Model of /repo/src/dga/dga_main.py lines 213-253: the non-local Schwinger-Dyson equation distributed over the MPI ranks
    and the assembly of the DGA self-energy.  Everything is given for one k (see Model/FourPoint.v).  Logging, garbage collection
    and plots are not modelled; create_dga_siwk_with_dmft_as_asympt (line 256) is in Model/TwoPoint.v.
    The arrays of the irreducible momenta gathered from the ranks are unfolded on the root (lines 204-234). *)
From mathcomp Require Import all_ssreflect all_algebra.
From Coq Require Import String.
From Verif Require Import Base.PyBase Model.Matsubara Model.MpiAux Model.LocalFourPoint Model.LocalSDE Model.Bubble Model.FourPoint.
From Verif Require Model.BrillouinZone.
Set Implicit Arguments. Unset Strict Implicit. Unset Printing Implicit Defensive.
Import GRing.Theory.
Local Open Scope ring_scope.

Section Main.
Variable F : fieldType.
Variables nx ny nz : nat.
Notation K := (mesh nx ny nz).
(** mpi_aux.py:160-163 on arrays: the ranks' rows are added in an order the MPI library chooses *)
Definition allreduce_rows (n : Z) (order : list Z) (parts : list (list F)) : res (list F) :=
  foldM (fun s r => let! x := py_get parts r in iadd s x) order (np_zeros F n).
(** lines 213-239 on rank r; the five root arrays have been scattered *)
Definition rank_siwk (nv : Z) (vd vm : list (list (list (list F)))) (cd cm : list (list (list F))) (kdc : list (list (list (list F)))) (giwk : K -> list F) (beta u : F)
    (full_q_list : list (Z * Z * Z)) (wn : list Z) (nk_tot mpi_size : Z) (k : K) (r : Z) : res (list F) :=
  let! sl := my_slice nk_tot mpi_size r in
  let my_full_q_list := slice full_q_list sl.1 sl.2 in
  let! chi_lad_dens := py_get cd r in
  let! chi_lad_magn := py_get cm r in
  let! vrg_q_dens := py_get vd r in
  let! vrg_q_magn := py_get vm r in
  let! kernel_dc := py_get kdc r in
  schwinger_dyson_full_q nv vrg_q_dens vrg_q_magn chi_lad_dens chi_lad_magn kernel_dc giwk beta u my_full_q_list wn (Z.to_nat nk_tot)%:R 0 k.
(** lines 213-249 on mpi_size ranks *)
Definition nonlocal_sde (nv : Z) (vrg_dens vrg_magn : list (list (list F))) (chi_dens chi_magn : list (list F)) (kernel_dc : list (list (list F))) (giwk : K -> list F)
    (beta u : F) (full_q_list : list (Z * Z * Z)) (wn : list Z) (nk_tot mpi_size : Z) (order : list Z) (k : K) : res (list F) :=
  let! cd := scatter nk_tot mpi_size chi_dens in
  let! cm := scatter nk_tot mpi_size chi_magn in
  let! vd := scatter nk_tot mpi_size vrg_dens in
  let! vm := scatter nk_tot mpi_size vrg_magn in
  let! kdc := scatter nk_tot mpi_size kernel_dc in
  let! parts := mapM (rank_siwk nv vd vm cd cm kdc giwk beta u full_q_list wn nk_tot mpi_size k) (range mpi_size) in
  allreduce_rows nv order parts.
(** lines 251-253 *)
Definition assemble_siwk (siwk_dga siw siw_sde_full : list F) (niv_core : Z) (u n : F) : res (list F) :=
  let! d := np_map2 (fun x y => x - y) (cut_v_1d siw niv_core) (cut_v_1d siw_sde_full niv_core) in
  let! s := iadd siwk_dga d in
  Ok (List.map (fun x => x + get_smom0 u n) s).
(** lines 213-253 *)
Definition dga_siwk (nv : Z) (vrg_dens vrg_magn : list (list (list F))) (chi_dens chi_magn : list (list F)) (kernel_dc : list (list (list F))) (giwk : K -> list F)
    (beta u : F) (full_q_list : list (Z * Z * Z)) (wn : list Z) (nk_tot mpi_size : Z) (order : list Z) (siw siw_sde_full : list F) (n : F) (niv_core : Z) (k : K) : res (list F) :=
  let! siwk := nonlocal_sde nv vrg_dens vrg_magn chi_dens chi_magn kernel_dc giwk beta u full_q_list wn nk_tot mpi_size order k in
  assemble_siwk siwk siw siw_sde_full niv_core u n.
(** the buffer of a completed gather; a cell that no rank filled would be uninitialised memory, here an error *)
Definition filled A (l : list (option A)) : res (list A) := mapM (fun o => match o with Some a => Ok a | None => Raise ValueError end) l.
(** lines 204-211 and 233-234: collect an array of the irreducible momenta from the ranks and unfold it to the full zone *)
Definition gather_unfold A (g : BrillouinZone.kgrid) (mpi_size : Z) (parts : list (list A)) : res (list A) :=
  let! l := gather (BrillouinZone.nk_irr g) mpi_size parts in
  let! l := filled l in BrillouinZone.map_irrk2fbz_list g l.
(** lines 204-253; the susceptibilities are the lambda corrected ones on the mesh (lines 224-225: map_fbz_mesh2list) *)
Definition dga_siwk_from_ranks (nv : Z) (g : BrillouinZone.kgrid) (vrg_dens vrg_magn : list (list (list (list F)))) (chi_dens chi_magn : list (list (list (list F))))
    (kernel_dc : list (list (list (list F)))) (giwk : K -> list F) (beta u : F) (wn : list Z) (mpi_size : Z) (order : list Z) (siw siw_sde_full : list F) (n : F) (niv_core : Z)
    (k : K) : res (list F) :=
  let! vd := gather_unfold g mpi_size vrg_dens in
  let! vm := gather_unfold g mpi_size vrg_magn in
  let! kdc := gather_unfold g mpi_size kernel_dc in
  dga_siwk nv vd vm (BrillouinZone.flatten3 chi_dens) (BrillouinZone.flatten3 chi_magn) kdc giwk beta u (BrillouinZone.get_q_list g) wn (BrillouinZone.nk_tot g) mpi_size order siw siw_sde_full n niv_core k.
End Main.
