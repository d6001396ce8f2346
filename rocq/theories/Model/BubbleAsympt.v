(** Model of the high-frequency corrections of /repo/src/dga/bubble.py (lines 184-293).

    Numbers are the real numbers of Coq's standard library and Coquelicot's
    complex numbers built on them.  A mesh array is a function of three integer
    indices, read only inside the mesh; sizes nx, ny, nz. *)
From Coq Require Import Reals ZArith List String.
From Coquelicot Require Import Complex.
From Verif Require Import Base.PyBase Model.Matsubara Model.Bubble.
Import ListNotations.
Local Open Scope R_scope.

(** np.sum of a complex vector and of a real one *)
Definition clsum (l : list C) : C := fold_right Cplus (RtoC 0) l.
Definition rlsum (l : list R) : R := fold_right Rplus 0 l.
(** np.mean over the mesh *)
Definition mesh_points (nx ny nz : Z) : list (Z * Z * Z) :=
  flat_map (fun x => flat_map (fun y => map (fun z => (x, y, z)) (range nz)) (range ny)) (range nx).
Definition mesh_mean (nx ny nz : Z) (f : Z * Z * Z -> R) : R :=
  rlsum (map f (mesh_points nx ny nz)) / IZR (nx * ny * nz).
(** brillouin_zone.py:542-544 [shift_mat_by_ind]: np.roll by (qx,qy,qz); entry i of
    np.roll(l,q) is entry (i-q) mod n of l. *)
Definition shift_mat (nx ny nz : Z) (mat : Z * Z * Z -> R) (ind : Z * Z * Z) : Z * Z * Z -> R :=
  fun k => match k, ind with (x, y, z), (qx, qy, qz) => mat ((x - qx) mod nx, (y - qy) mod ny, (z - qz) mod nz)%Z end.

(** What a BubbleGenerator reads from its Green's function (lines 110-141). *)
Record bgen := BGen {
  bg_nx : Z; bg_ny : Z; bg_nz : Z; bg_ek : Z * Z * Z -> R;
  bg_beta : R; bg_mu : R; bg_smom0 : R; bg_smom1 : R; bg_wn : list Z }.

(** bubble.py:118-120 [ek_mom2], 126-128 [ek_mom1] *)
Definition ek_mom1 (g : bgen) : R := mesh_mean (bg_nx g) (bg_ny g) (bg_nz g) (bg_ek g).
Definition ek_mom2 (g : bgen) : R := mesh_mean (bg_nx g) (bg_ny g) (bg_nz g) (fun k => bg_ek g k ^ 2).
(** bubble.py:219-224 [get_ek_ekpq] for one q *)
Definition ek_ekpq (g : bgen) (q : Z * Z * Z) : R :=
  let ekpq := shift_mat (bg_nx g) (bg_ny g) (bg_nz g) (bg_ek g) (neg_ind q) in
  mesh_mean (bg_nx g) (bg_ny g) (bg_nz g) (fun k => bg_ek g k * ekpq k).

(** bubble.py:202-211 [get_asympt_prefactors], 213-217 [get_asympt_prefactors_q] for one q *)
Definition get_asympt_prefactors (g : bgen) : R * R * R :=
  let fac1 := bg_mu g - bg_smom0 g in
  let fac2 := (bg_mu g - bg_smom0 g) ^ 2 + ek_mom2 g - bg_smom1 g in
  let fac3 := (bg_mu g - bg_smom0 g) ^ 2 + ek_mom1 g ^ 2 in
  (fac1, fac2, fac3).
Definition get_asympt_prefactors_q (g : bgen) (q : Z * Z * Z) : R * R * R :=
  let fac1 := bg_mu g - bg_smom0 g in
  let fac2 := (bg_mu g - bg_smom0 g) ^ 2 + ek_mom2 g - bg_smom1 g in
  let fac3 := (bg_mu g - bg_smom0 g) ^ 2 + ek_ekpq g q in
  (fac1, fac2, fac3).

(** lines 231 and 269: [v = 1/(1j*mf.vn(beta, n))] *)
Definition v_arr (beta : R) (n : Z) : list C :=
  map (fun k => Cdiv (RtoC 1) (Cmult Ci (RtoC (PI / beta * IZR (2 * k + 1))))) (vn n 0 false).
(** lines 234-245 and 272-279: the sum for one bosonic frequency, before the factor -1/beta;
    numpy raises ValueError when the two slices differ in length (a slice of length one would
    broadcast: not modelled). *)
Definition asympt_sum_w (v : list C) (niv_sum : Z) (facs : R * R * R) (freq_notation : string) (iwn : Z) : res C :=
  let niv := (zlen v / 2)%Z in
  let! s := get_freq_shift iwn freq_notation in
  let v_sum := slice v (niv - niv_sum + fst s) (niv + niv_sum + fst s) in
  let vpw_sum := slice v (niv - niv_sum + snd s) (niv + niv_sum + snd s) in
  match facs with (fac1, fac2, fac3) =>
    let! t1 := np_map2 (fun a b => Cmult a b) v_sum vpw_sum in
    let! t2 := np_map2 (fun a b => Cplus (Cmult (Cmult a a) b) (Cmult a (Cmult b b))) v_sum vpw_sum in
    let! t3 := np_map2 (fun a b => Cplus (Cmult (Cmult a (Cmult a a)) b) (Cmult a (Cmult b (Cmult b b)))) v_sum vpw_sum in
    let! t4 := np_map2 (fun a b => Cmult (Cmult a a) (Cmult b b)) v_sum vpw_sum in
    let acc := RtoC 0 in
    let acc := Cplus acc (clsum t1) in
    let acc := Cminus acc (Cmult (clsum t2) (RtoC fac1)) in
    let acc := Cplus acc (Cmult (clsum t3) (RtoC fac2)) in
    let acc := Cplus acc (Cmult (clsum t4) (RtoC fac3)) in
    Ok acc
  end.
(** bubble.py:226-246 [get_asympt_sum] *)
Definition get_asympt_sum (g : bgen) (niv_sum : Z) (freq_notation : string) : res (list C) :=
  let! m := max_abs (bg_wn g) in
  let v := v_arr (bg_beta g) (niv_sum + m) in
  let! rows := mapM (asympt_sum_w v niv_sum (get_asympt_prefactors g) freq_notation) (bg_wn g) in
  Ok (map (fun x => Cmult x (RtoC (-1 / bg_beta g))) rows).
(** bubble.py:265-280 [get_asympt_sum_q]; the array of frequencies is sized by the NUMBER of bosonic frequencies *)
Definition get_asympt_sum_q (g : bgen) (niv_sum : Z) (q_list : list (Z * Z * Z)) (freq_notation : string) : res (list (list C)) :=
  let v := v_arr (bg_beta g) (niv_sum + zlen (bg_wn g)) in
  mapM (fun q =>
    let! rows := mapM (asympt_sum_w v niv_sum (get_asympt_prefactors_q g q) freq_notation) (bg_wn g) in
    Ok (map (fun x => Cmult x (RtoC (-1 / bg_beta g))) rows)) q_list.

(** bubble.py:248-263 [get_exact_asymptotics], 282-290 [get_exact_asymptotics_q] for one frequency *)
Definition exact_w (beta : R) (facs : R * R * R) (w : Z) : C :=
  match facs with (_, fac2, fac3) =>
    if Z.eqb w 0 then RtoC (beta / 4 - beta ^ 3 / 24 * fac2 - beta ^ 3 / 48 * fac3)
    else let iw := Cmult (RtoC (IZR w * 2 * PI / beta)) Ci in
         Cmult (Cmult (RtoC (- beta / 2 * 1)) (Cinv (Cmult iw iw))) (RtoC (fac2 - fac3))
  end.
Definition get_exact_asymptotics (g : bgen) : list C := map (exact_w (bg_beta g) (get_asympt_prefactors g)) (bg_wn g).
Definition get_exact_asymptotics_q (g : bgen) (q_list : list (Z * Z * Z)) : list (list C) :=
  map (fun q => map (exact_w (bg_beta g) (get_asympt_prefactors_q g q)) (bg_wn g)) q_list.

(** bubble.py:184-187 [get_asymptotic_correction], 189-192 [get_asymptotic_correction_q] *)
Definition get_asymptotic_correction (g : bgen) (niv_core : Z) (freq_notation : string) : res (list C) :=
  let! s := get_asympt_sum g niv_core freq_notation in
  Ok (map2 Cminus (get_exact_asymptotics g) s).
Definition get_asymptotic_correction_q (g : bgen) (niv_core : Z) (q_list : list (Z * Z * Z)) (freq_notation : string) : res (list (list C)) :=
  let! s := get_asympt_sum_q g niv_core q_list freq_notation in
  Ok (map2 (map2 Cminus) (get_exact_asymptotics_q g q_list) s).
