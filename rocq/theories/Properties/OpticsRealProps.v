(** Property C86: the optical conductivity from real-frequency Green functions (dga/optics.py:45-98). *)
From mathcomp Require Import all_ssreflect all_algebra.
From mathcomp.real_closed Require Import complex.
From Coq Require Import ZArith Lia Sorted.
From Verif Require Import Base.PyBase Model.TwoPoint Model.Bubble Model.OpticsReal.
From Verif Require Import Spec.OpticsRealSpec.
From Verif Require Import Proofs.OpticsRealP Proofs.OpticsReal2P Proofs.OpticsReal3P.
Import Order.TTheory GRing.Theory Num.Theory.
Set Implicit Arguments. Unset Strict Implicit. Unset Printing Implicit Defensive.
Local Open Scope ring_scope.
Local Open Scope complex_scope.

(** On a uniform mesh (j d, |j| <= M) the bubble is the Kubo integral over |v| <= (M - m) d, for the frequencies d, ..., (m-1) d below wmax;
    m d is the mesh point nearest to wmax. *)
Theorem C86_uniform : forall (R : rcfType) nx ny nz (rexp : R -> R) (cpi d : R) (M : Z), 0 < d -> (0 <= M)%Z ->
  forall (G : mesh nx ny nz -> R -> R[i]) m gwk a b beta wmax, (forall k, gwk k = List.map (fun j => G k (zr R (j - M) * d)) (arange 0 (2 * M + 1))) ->
  (0 <= m <= M)%Z -> wmax < zr R M * d -> zr R (2 * m - 1) * d < 2%:R * wmax -> 2%:R * wmax <= zr R (2 * m + 1) * d ->
  vec_get_chijj_bubble_realf rexp cpi (List.map (fun j => zr R (j - M) * d) (arange 0 (2 * M + 1))) gwk a b beta wmax =
  Ok (List.map (fun i => chijj_real (fermi rexp beta) cpi d a b G (M - m) (zr R i * d)) (arange 1 m), List.map (fun i => zr R i * d) (arange 1 m)).
Proof. exact realf_uniform. Qed.
Print Assumptions C86_uniform.
(** On any mesh with 2M+1 points whose smallest |w| is in the middle, frequencies are shifted by mesh index: w_{j+i} stands for w_j + w_{M+i}. *)
Theorem C86_any_grid : forall (R : rcfType) nx ny nz (rexp : R -> R) (cpi : R) (W : Z -> R) (Gg : mesh nx ny nz -> Z -> R[i]) M m gwk a b beta wmax,
  (forall k, gwk k = List.map (Gg k) (arange 0 (2 * M + 1))) -> (0 <= m <= M)%Z -> (exists j, (0 <= j <= 2 * M)%Z /\ wmax < W j) ->
  argminr (List.map (fun x => `|x|) (List.map W (arange 0 (2 * M + 1)))) = Ok M -> argminr (List.map (fun x => `|x - wmax|) (List.map W (arange 0 (2 * M + 1)))) = Ok (M + m)%Z ->
  vec_get_chijj_bubble_realf rexp cpi (List.map W (arange 0 (2 * M + 1))) gwk a b beta wmax =
  Ok (List.map (fun i => - 2%:R * ((\sum_(k : mesh nx ny nz) a k * b k * trapezoid W (fun j => (fermi rexp beta (W j) * spectral cpi (Gg k j))%:C * (Gg k (j + i)%Z + conjc (Gg k (j - i)%Z))) m (2 * M - m)) / #|{: mesh nx ny nz}|%:R)) (arange 1 m),
      List.map (fun i => W (M + i)%Z) (arange 1 m)).
Proof. exact realf_any_grid. Qed.
Print Assumptions C86_any_grid.
(** So on a mesh that is not uniform the value is wrong: on -9, -4, -1, 0, 1, 4, 9 with G = -i up to 3 and 0 above. *)
Theorem C86_nonuniform_refuted : forall (R : rcfType) (rexp : R -> R) (cpi beta : R), 0 < cpi -> (forall x, 0 <= rexp x) ->
  exists c, vec_get_chijj_bubble_realf rexp cpi (List.map (sqmesh R) (arange 0 7)) (fun k => List.map (fun j => gstep k (sqmesh R j)) (arange 0 7)) (fun _ => 1) (fun _ => 1) beta 6%:R = Ok ([:: c], [:: 1]) /\
  c <> chijj_real_grid (fermi rexp beta) cpi (sqmesh R) (fun _ => 1) (fun _ => 1) (@gstep R) 2 4 1.
Proof. exact nonuniform_value. Qed.
Print Assumptions C86_nonuniform_refuted.
(** A uniform symmetric mesh with an even number of points (spacing 2h) always raises, for every wmax between one spacing and the mesh end. *)
Theorem C86_even_mesh_finding : forall (R : rcfType) nx ny nz (rexp : R -> R) (cpi h : R) (M : Z), 0 < h ->
  forall (gwk : mesh nx ny nz -> list R[i]) a b beta wmax, zr R 2 * h < wmax -> wmax < zr R (2 * M - 1) * h ->
  vec_get_chijj_bubble_realf rexp cpi (List.map (fun j => zr R (2 * j + 1 - 2 * M) * h) (arange 0 (2 * M))) gwk a b beta wmax = Raise ValueError.
Proof. exact realf_even_raises_all. Qed.
Print Assumptions C86_even_mesh_finding.
(** The maximal frequency must lie inside the mesh. *)
Theorem C86_wmax_checked : forall (R : rcfType) nx ny nz (rexp : R -> R) (cpi : R) (w : list R) (gwk : mesh nx ny nz -> list R[i]) a b beta wmax,
  w <> [::] -> (forall x, List.In x w -> x <= wmax) -> vec_get_chijj_bubble_realf rexp cpi w gwk a b beta wmax = Raise AssertionError.
Proof.
  move=> R nx ny nz rexp cpi w gwk a b beta wmax Hw H. have [mx E] := maxr_ok Hw. rewrite /vec_get_chijj_bubble_realf E /=.
  have -> : (wmax < mx) = false; last by []. apply/negbTE. rewrite -leNgt. apply: H.
  case: w Hw E => [//|x l] _ /= [<-]. elim: l x => [|y l IH] x /=; first by left. case: ifP => _; [have := IH y|have := IH x]; rewrite /=; tauto.
Qed.
Print Assumptions C86_wmax_checked.
(** Im chi_jj(w) >= 0 for w >= 0, hence a non-negative conductivity, when the spectral function is non-negative and vanishes outside the window. *)
Theorem C86_conductivity_nonnegative : forall (R : rcfType) nx ny nz (nf : R -> R) cpi d (lv : mesh nx ny nz -> R) G W i, 0 < cpi -> 0 < d -> (0 <= W)%Z -> (0 <= i)%Z ->
  (forall x y, x <= y -> nf y <= nf x) -> (forall k x, 0 <= spectral cpi (G k x)) -> (forall k j, (W <= Z.abs j)%Z -> spectral cpi (G k (zr R j * d)) = 0) ->
  0 <= complex.Im (chijj_real nf cpi d (fun k => (lv k)%:C) (fun k => (lv k)%:C) G W (zr R i * d)).
Proof. exact conductivity_ge0. Qed.
Print Assumptions C86_conductivity_nonnegative.
(** The Fermi function of the code is decreasing and in (0,1), so the previous theorem applies to it. *)
Theorem C86_fermi : forall (R : rcfType) (rexp : R -> R) (beta : R), (forall x, 0 < rexp x) -> (forall x y, x <= y -> rexp x <= rexp y) -> 0 <= beta ->
  (forall x, 0 < fermi_function rexp x beta /\ fermi_function rexp x beta < 1) /\ (forall x y, x <= y -> fermi_function rexp y beta <= fermi_function rexp x beta).
Proof.
  move=> R rexp beta H0 Hm Hb. have P : forall x, 0 < rexp x + 1 by move=> x; rewrite addr_gt0 ?H0 ?ltr01.
  split=> [x|x y Hxy]; rewrite /fermi_function !div1r.
  - split; first by rewrite invr_gt0. rewrite invf_lt1 // ltr_addr. exact: H0.
  - rewrite lef_pinv ?posrE // ler_add2r. apply: Hm. exact: ler_wpmul2l.
Qed.
Print Assumptions C86_fermi.
(** sigma(w) = Im chi_jj(w) / w at every frequency of the bubble; one value at w = 0 is added by the interpolation (of the even function). *)
Theorem C86_sigma : forall (R : rcfType) interp (c : Z -> R[i]) (x : Z -> R) m, interpolates interp -> (3 <= m)%Z ->
  (forall i, (1 <= i < m)%Z -> 0 < x i) -> (forall i j, (1 <= i < j)%Z -> (j < m)%Z -> x i < x j) ->
  exists s0, get_sigma_from_chijj_realf interp (List.map c (arange 1 m)) (List.map x (arange 1 m)) =
  (s0 :: List.map (fun i => complex.Im (c i) / x i) (arange 1 m), 0 :: List.map x (arange 1 m)).
Proof. exact sigma_interp. Qed.
Print Assumptions C86_sigma.
(** The value at w = 0 is that of the interpolation of the even continuation sigma(-w) = sigma(w). *)
Theorem C86_sigma_zero : forall (R : rcfType) interp (c : Z -> R[i]) (x : Z -> R) m, let sigma i := complex.Im (c i) / x i in
  List.hd 0 (get_sigma_from_chijj_realf interp (List.map c (arange 1 m)) (List.map x (arange 1 m))).1 =
  interp (List.map (fun i => - x i) (List.rev (arange 1 m)) ++ List.map x (arange 1 m)) (List.map sigma (List.rev (arange 1 m)) ++ List.map sigma (arange 1 m)) 0.
Proof. exact sigma_zero. Qed.
Print Assumptions C86_sigma_zero.
(** End to end: bubble and conductivity. *)
Theorem C86_end_to_end : forall (R : rcfType) nx ny nz (rexp : R -> R) (cpi d : R) interp (M : Z), 0 < d -> interpolates interp ->
  forall (G : mesh nx ny nz -> R -> R[i]) m gwk a b beta wmax, (forall k, gwk k = List.map (fun j => G k (zr R (j - M) * d)) (arange 0 (2 * M + 1))) ->
  (3 <= m <= M)%Z -> wmax < zr R M * d -> zr R (2 * m - 1) * d < 2%:R * wmax -> 2%:R * wmax <= zr R (2 * m + 1) * d ->
  exists s0, vec_get_sigma_bub_realf rexp cpi interp (List.map (fun j => zr R (j - M) * d) (arange 0 (2 * M + 1))) gwk a b beta wmax =
  Ok (s0 :: List.map (fun i => complex.Im (chijj_real (fermi rexp beta) cpi d a b G (M - m) (zr R i * d)) / (zr R i * d)) (arange 1 m), 0 :: List.map (fun i => zr R i * d) (arange 1 m)).
Proof.
  move=> R nx ny nz rexp cpi d interp M Hd HI G m gwk a b beta wmax Hg Hm H1 H2 H3. rewrite /vec_get_sigma_bub_realf (@C86_uniform R nx ny nz rexp cpi d M Hd ltac:(lia) G m) //; last lia.
  have [s0 E] := @C86_sigma R interp (fun i => chijj_real (fermi rexp beta) cpi d a b G (M - m) (zr R i * d)) (fun i => zr R i * d) m HI ltac:(lia)
     ltac:(move=> i Hi; apply: mulr_gt0 => //; apply: zr_gt0; lia) ltac:(move=> i j Hi Hj; apply: mulz_lt => //; lia).
  exists s0. rewrite [bind _ _]/=. by rewrite E.
Qed.
Print Assumptions C86_end_to_end.
(** M = 6, m = 3, d = 1, wmax = 3; a spectral function on |v| <= 1; M = 6 even mesh with wmax = 3h; linear interpolation through given points. *)
Example C86_case : forall R : rcfType, (0 < 1 :> R) /\ (3 <= 3 <= 6)%Z /\ (3%:R < zr R 6 * 1) /\ (zr R (2 * 3 - 1) * 1 < 2%:R * 3%:R) /\ (2%:R * 3%:R <= zr R (2 * 3 + 1) * 1) /\
  (zr R 2 * 1 < 3%:R /\ 3%:R < zr R (2 * 6 - 1) * 1).
Proof.
  move=> R. have z3 : 3%:R = zr R 3 by []. have z6 : 2%:R * 3%:R = zr R 6 by rewrite -natrM. rewrite z6 !mulr1 z3. split; first exact: ltr01. split; first lia. by repeat split; try apply: zr_lt; try apply: zr_le.
Qed.
Example C86_positivity_case : forall R : rcfType, exists G : mesh 1 1 1 -> R -> R[i], (forall k x, 0 <= spectral 1 (G k x)) /\
  (forall k j, (2 <= Z.abs j)%Z -> spectral 1 (G k (zr R j * 1)) = 0) /\ (forall k, spectral 1 (G k 0) = 1).
Proof.
  move=> R. exists (fun _ x => if `|x| <= 1 then - 'i else 0). split; [|split].
  - move=> k x. rewrite /spectral. by case: ifP => _ /=; rewrite ?opprK ?oppr0 divr1 ?ler01 ?lexx.
  - move=> k j Hj. rewrite mulr1 zr_abs leNgt. have -> : 1 < zr R (Z.abs j) by rewrite -(zr1 R) zr_lt //; lia. by rewrite /spectral /= oppr0 mul0r.
  - move=> k. by rewrite normr0 ler01 /spectral /= opprK divr1.
Qed.
Example C86_interp_case : forall R : rcfType, exists interp : list R -> list R -> R -> R, interpolates interp.
Proof.
  move=> R. exists (fun xs ys x => match List.find (fun p => p.1 == x) (List.combine xs ys) with Some p => p.2 | None => 0 end).
  move=> xs ys HS HL _ x y. elim: HS ys HL => [|a l HS IH HF] [|b ys] //= [HL] [[-> ->]|Hin]; first by rewrite eqxx.
  case: eqP => [Ea|_]; last exact: IH. exfalso. have Hx := List.in_combine_l _ _ _ _ Hin. have := proj1 (List.Forall_forall _ _) HF _ Hx. by rewrite Ea ltxx.
Qed.
