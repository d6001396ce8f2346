(** Model of /repo/src/dga/optics.py: bubble and vertex contributions to the current-current correlation function
    (lines 25-38, 96-161) and the calls in dga_main.py lines 325-373.  The assembly of the vertex (163-201) is in
    Model/VertexBuild.v, the files (205-284) in Model/RankFiles.v, the real-frequency bubble (44-70) in Model/OpticsReal.v.

    Numbers as in Model/TwoPoint.v; arrays [kx,ky,kz,v] as in Model/Bubble.v (a function from the mesh points to the list along
    the last axis, whose length n is an argument); the light vertices are functions of the mesh point.  Slices of length one are
    not modelled as broadcasting.  Plots, logging, garbage collection and the spline of lines 73-81 are not modelled. *)
From mathcomp Require Import all_ssreflect all_algebra.
From mathcomp.real_closed Require Import complex.
From Coq Require Import String ZArith.
From Verif Require Import Base.PyBase Model.Matsubara Model.TwoPoint Model.Bubble Model.MpiAux.
Import GRing.Theory Num.Theory.
Set Implicit Arguments. Unset Strict Implicit. Unset Printing Implicit Defensive.
Local Open Scope ring_scope.
Local Open Scope complex_scope.

Section Optics.
Variable R : rcfType.
Notation C := R[i].
Variables nx ny nz : nat.
Notation K := (mesh nx ny nz).

(** lines 25-38 [get_chijj_bubble] *)
Definition get_chijj_bubble (giwk : K -> list C) (n : Z) (lv_a lv_b : K -> C) (beta : R) (iwn niv_sum : Z) (freq_notation : string) : res C :=
  let! s := get_freq_shift iwn freq_notation in
  let niv_giw := niv_from_len n false in
  let l1 := slice_len n (niv_giw - niv_sum + s.1) (niv_giw + niv_sum + s.1) in
  let l2 := slice_len n (niv_giw - niv_sum + s.2) (niv_giw + niv_sum + s.2) in
  if Z.eqb l1 l2 then
    Ok (- 2%:R / beta%:C * ((\sum_(k : K) (lv_a k * lv_b k) *
         lsum (map2 (fun a b => a * b) (slice (giwk k) (niv_giw - niv_sum + s.1) (niv_giw + niv_sum + s.1))
                                       (slice (giwk k) (niv_giw - niv_sum + s.2) (niv_giw + niv_sum + s.2)))) / #|{: K}|%:R))
  else Raise ValueError.
(** lines 96-108 [vec_get_chijj_bubble] *)
Definition vec_get_chijj_bubble (giwk : K -> list C) (n : Z) (lv_a lv_b : K -> C) (beta : R) (wn : list Z) (niv_sum : Z) (freq_notation : string) : res (list C) :=
  mapM (fun iwn => get_chijj_bubble giwk n lv_a lv_b beta iwn niv_sum freq_notation) wn.

(** lines 127-136 for one q and one k: the row lv2_gg * gg_fcond along v; gg_fcond starts as the number 0 ([None]) *)
Definition vertex_row (giwk : K -> list C) (nl nu iwn : Z) (lv_a lv_b : K -> C) (wpn : list Z) (fq : list (list C)) (q : Z * Z * Z) (k : K) : res (list C) :=
  let lv_b_kpq := shift_mat_by_ind lv_b (neg_ind q) in
  let giwk_kpq := shift_mat_by_ind giwk (neg_ind q) in
  let gk_vmw := slice (giwk k) (nl - iwn) (nu - iwn) in
  let gk_v := slice (giwk k) nl nu in
  let! lv2_gg := np_map2 (fun a b => a * b) (List.map (fun x => lv_a k * lv_b_kpq k * x) gk_vmw) gk_v in
  let! gg := foldM (fun acc jw =>
      let gkpq_vmwp := slice (giwk_kpq k) (nl - jw.2) (nu - jw.2) in
      let gkpq_vmwpmw := slice (giwk_kpq k) (nl - jw.2 - iwn) (nu - jw.2 - iwn) in
      let! f := py_get fq jw.1 in
      let! x := np_map2 (fun a b => a * b) gkpq_vmwp gkpq_vmwpmw in
      let! x := np_map2 (fun a b => a * b) x f in
      match acc with None => Ok (Some x) | Some y => let! z := np_map2 (fun a b => a + b) y x in Ok (Some z) end) (enumerate wpn) None in
  match gg with None => Ok (List.map (fun x => x * 0) lv2_gg) | Some g => np_map2 (fun a b => a * b) lv2_gg g end.
(** lines 111-140 [get_chijj_vertex]; nv is the last axis of f_cond [q,wp,v] *)
Definition get_chijj_vertex (f_cond : list (list (list C))) (nv : Z) (lv_a lv_b : K -> C) (giwk : K -> list C) (n : Z) (beta : R) (iwn : Z) (wpn : list Z)
    (q_list : list (Z * Z * Z)) (nk_tot : Z) : res C :=
  let niv_vert := niv_from_len nv false in
  let niv_g := niv_from_len n false in
  let nl := (niv_g - niv_vert)%Z in
  let nu := (niv_g + niv_vert)%Z in
  let! sigma_vert := foldM (fun s iq =>
      let! fq := py_get f_cond iq.1 in
      let! rows := mapM (vertex_row giwk nl nu iwn lv_a lv_b wpn fq iq.2) (enum {: K}) in
      Ok (s + (\sum_(r <- rows) lsum r) / #|{: K}|%:R)) (enumerate q_list) 0 in
  Ok (- 2%:R / (beta%:C ^+ 2 * (Z.to_nat nk_tot)%:R) * sigma_vert).
(** lines 143-161 [vec_get_chijj_vert]; f_cond is [q,wp,w,v], its shape (nwp, nw, nv) without q is an argument *)
Definition vec_get_chijj_vert (f_cond : list (list (list (list C)))) (nwp nw nv : Z) (giwk : K -> list C) (n : Z) (lv_a lv_b : K -> C) (beta : R)
    (wn_vert wn_cond : list Z) (q_list : list (Z * Z * Z)) (nk_tot : Z) : res (list C) :=
  if ~~ Z.eqb (zlen wn_vert) nwp then Raise AssertionError
  else if ~~ Z.eqb (zlen wn_cond) nw then Raise AssertionError
  else
    let niv_cut := (nv / 2 + niw_from_len (zlen wn_vert) false + niw_from_len (zlen wn_cond) true)%Z in
    let giwk := fun k => cut_v_1d (giwk k) niv_cut in
    let c := (if Z.eqb niv_cut (-1) then n / 2 else niv_cut)%Z in
    let n := slice_len n (n / 2 - c) (n / 2 + c) in
    mapM (fun i_iwn =>
      let! fi := mapM (mapM (fun rows => py_get rows i_iwn.1)) f_cond in
      get_chijj_vertex fi nv lv_a lv_b giwk n beta i_iwn.2 wn_vert q_list nk_tot) (enumerate wn_cond).

(** dga_main.py:325-332: the bubble on rank 0, completed to negative frequencies *)
Definition main_chijj_bubble (giwk : K -> list C) (n : Z) (lv_a lv_b : K -> C) (beta : R) (niw_bubble niv_bubble : Z) : res (list C) :=
  let! chi := vec_get_chijj_bubble giwk n lv_a lv_b beta (Matsubara.wn niw_bubble 0 true) niv_bubble "minus" in
  Ok (bosonic_full_nu_range (@conjc R) chi).
(** dga_main.py:335-351 on mpi_size ranks: the vertex is scattered over the momenta, the parts added in an order MPI chooses *)
Definition main_chijj_vert (f_cond : list (list (list (list C)))) (nwp nw nv : Z) (giwk : K -> list C) (n : Z) (lv_a lv_b : K -> C) (beta : R)
    (niw_vert niw_cond : Z) (full_q_list : list (Z * Z * Z)) (nk_tot mpi_size : Z) (order : list Z) : res (list C) :=
  let wn_cond := Matsubara.wn niw_cond 0 true in
  let! fs := scatter nk_tot mpi_size f_cond in
  let! parts := mapM (fun r =>
      let! sl := my_slice nk_tot mpi_size r in
      let! f := py_get fs r in
      vec_get_chijj_vert f nwp nw nv giwk n lv_a lv_b beta (Matsubara.wn niw_vert 0 false) wn_cond (slice full_q_list sl.1 sl.2) nk_tot) (range mpi_size) in
  let! tot := foldM (fun s r => let! x := py_get parts r in np_map2 (fun a b => a + b) s x) order (List.repeat 0 (length wn_cond)) in
  Ok (bosonic_full_nu_range (@conjc R) tot).
(** dga_main.py:372 *)
Definition chijj_full (bubble vert : list C) : res (list C) := add_bosonic (fun a b => a + b) bubble vert.
End Optics.
