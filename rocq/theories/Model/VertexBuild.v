(** Model of the assembly of vertices from the stored ladder components: /repo/src/dga/pairing_vertex.py lines 134-169
    [build_pairing_vertex] and /repo/src/dga/optics.py lines 163-201 [build_vertex_for_optical_conductivity].

    Arrays over the full zone are lists in C order of the mesh ([map_irrk2fbz] with shape 'mesh' only reshapes).  Elementwise
    operations demand equal shapes (numpy raises ValueError otherwise; broadcasting of axes of length one is not modelled).
    Loading the components is Model/RankFiles.v; plots, k averages for plots, saving and garbage collection are not modelled. *)
From mathcomp Require Import all_ssreflect all_algebra.
From mathcomp.real_closed Require Import complex.
From Coq Require Import ZArith.
From Verif Require Import Base.PyBase Model.Matsubara Model.BrillouinZone Model.RankFiles.
Import GRing.Theory Num.Theory.
Set Implicit Arguments. Unset Strict Implicit. Unset Printing Implicit Defensive.
Local Open Scope ring_scope.
Local Open Scope complex_scope.

(** elementwise operation on two-dimensional arrays *)
Definition np2d {A B D} (f : A -> B -> D) (a : list (list A)) (b : list (list B)) : res (list (list D)) :=
  if Z.eqb (zlen a) (zlen b) then mapM (fun p => np_map2 f p.1 p.2) (List.combine a b) else Raise ValueError.
(** elementwise operation on three-dimensional arrays *)
Definition np3d {A B D} (f : A -> B -> D) (a : list (list (list A))) (b : list (list (list B))) : res (list (list (list D))) :=
  if Z.eqb (zlen a) (zlen b) then mapM (fun p => np2d f p.1 p.2) (List.combine a b) else Raise ValueError.
(** [x[..., None, None] * b]: one number per first index *)
Definition np_lead {A B D} (f : A -> B -> D) (x : list A) (b : list (list (list B))) : res (list (list (list D))) :=
  if Z.eqb (zlen x) (zlen b) then Ok (List.map (fun p => List.map (List.map (f p.1)) p.2) (List.combine x b)) else Raise ValueError.

Section Build.
Variable R : rcfType.
Notation C := R[i].

(** pairing_vertex.py:139-151 for one momentum: the susceptibility at v-vp, f = f1 + (1 +- u chi) f2, singlet and triplet *)
Definition pairing_point (u : C) (niv_pp : Z) (f1_magn f2_magn f1_dens f2_dens : list (list C)) (chi_magn chi_dens : list C) : res (list (list C) * list (list C)) :=
  let! chi_magn_pp := reshape_chi chi_magn niv_pp in
  let! t := np2d (fun chi f2 => (1 + u * chi) * f2) chi_magn_pp f2_magn in
  let! f_magn := np2d (fun f1 x => f1 + x) f1_magn t in
  let! chi_dens_pp := reshape_chi chi_dens niv_pp in
  let! t := np2d (fun chi f2 => (1 - u * chi) * f2) chi_dens_pp f2_dens in
  let! f_dens := np2d (fun f1 x => f1 + x) f1_dens t in
  let! f_sing := np2d (fun m d => 3%:R / 2%:R * m - 1 / 2%:R * d) f_magn f_dens in
  let! f_trip := np2d (fun m d => 1 / 2%:R * m + 1 / 2%:R * d) f_magn f_dens in
  Ok (f_sing, f_trip).
(** pairing_vertex.py:140-141, 145-146 and the elementwise steps at all momenta; chi_magn and chi_dens are [q of the full zone, w] *)
Definition build_pairing_vertex (g : kgrid) (u : C) (niv_pp : Z) (f1_magn f2_magn f1_dens f2_dens : list (list (list C))) (chi_magn chi_dens : list (list C)) :
    res (list (list (list C) * list (list C))) :=
  let! f1_magn := map_irrk2fbz_list g f1_magn in
  let! f2_magn := map_irrk2fbz_list g f2_magn in
  let! f1_dens := map_irrk2fbz_list g f1_dens in
  let! f2_dens := map_irrk2fbz_list g f2_dens in
  mapM (fun i => let! a := py_get f1_magn i in let! b := py_get f2_magn i in let! c := py_get f1_dens i in let! d := py_get f2_dens i in
                 let! x := py_get chi_magn i in let! y := py_get chi_dens i in pairing_point u niv_pp a b c d x y) (range (nk_tot g)).

(** optics.py:174-191 for one momentum: parts [w, wc, v], susceptibilities cut to niw_vert *)
Definition f_cond_point (u : C) (niw_vert : Z) (f1_magn f2_magn f1_dens f2_dens : list (list (list C))) (chi_magn chi_dens : list C) : res (list (list (list C))) :=
  let! t := np_lead (fun chi f2 => (1 + u * chi) * f2) (cut_w_1d chi_magn niw_vert) f2_magn in
  let! f_magn := np3d (fun f1 x => f1 + x) f1_magn t in
  let! t := np_lead (fun chi f2 => (1 - u * chi) * f2) (cut_w_1d chi_dens niw_vert) f2_dens in
  let! f_dens := np3d (fun f1 x => f1 + x) f1_dens t in
  np3d (fun d m => - 1 / 2%:R * d - 3%:R / 2%:R * m) f_dens f_magn.
(** optics.py:172-191 at all momenta *)
Definition build_f_cond (g : kgrid) (u : C) (niw_vert : Z) (f1_magn f2_magn f1_dens f2_dens : list (list (list (list C)))) (chi_magn chi_dens : list (list C)) :
    res (list (list (list (list C)))) :=
  let! f1_magn := map_irrk2fbz_list g f1_magn in
  let! f2_magn := map_irrk2fbz_list g f2_magn in
  let! f1_dens := map_irrk2fbz_list g f1_dens in
  let! f2_dens := map_irrk2fbz_list g f2_dens in
  mapM (fun i => let! a := py_get f1_magn i in let! b := py_get f2_magn i in let! c := py_get f1_dens i in let! d := py_get f2_dens i in
                 let! x := py_get chi_magn i in let! y := py_get chi_dens i in f_cond_point u niw_vert a b c d x y) (range (nk_tot g)).
End Build.
