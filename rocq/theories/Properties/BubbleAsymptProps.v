(** C73: the high-frequency corrections of the bubble (bubble.py:184-293). *)
From Coq Require Import Reals ZArith List Lia Lra String.
From Coquelicot Require Import Complex.
From Verif Require Import Base.PyBase Base.PyFacts Model.Matsubara Model.Bubble Model.BubbleAsympt Spec.AsymptSpec Spec.BubbleSpec
  Proofs.BubbleAsymptP Proofs.BubbleAsymptMainP Proofs.BubbleMeshP Proofs.BubbleCorrP.
Import ListNotations.
Local Open Scope R_scope.
Local Open Scope C_scope.
Local Arguments Cmod (_)%C_scope.

(** the band energies, on a mesh that is not empty, have mean zero; beta is not zero *)
Definition mesh_ok (g : bgen) : Prop := (0 < bg_nx g)%Z /\ (0 < bg_ny g)%Z /\ (0 < bg_nz g)%Z /\ bg_beta g <> 0%R.
Definition mean_zero (g : bgen) : Prop := avgR (bg_nx g) (bg_ny g) (bg_nz g) (bg_ek g) = 0%R.
(** energy relative to the high-frequency chemical potential *)
Notation xe g k := (bg_mu g - bg_ek g k - bg_smom0 g)%R.
(** the two sums outside the window -niv <= n < niv, up to |n| <= M *)
Definition outside (niv : Z) (M : nat) (F : Z -> C) : C := zsumC (- Z.of_nat M) (- niv) F + zsumC niv (Z.of_nat M) F.

(** ** the correction is the missing tail of the expanded product *)
Theorem C73_local_correction_is_the_tail (g : bgen) (c : conv) : mesh_ok g -> mean_zero g -> bg_wn g <> [] ->
  exists u : Z -> Z -> C, (forall niv, (0 <= niv)%Z -> get_asymptotic_correction g niv (name c) = Ok (map (u niv) (bg_wn g))) /\
  forall niv w, (0 <= niv)%Z -> In w (bg_wn g) ->
  Ccv (fun M => RtoC (-1 / bg_beta g) * outside niv M (fun n =>
    avgC (bg_nx g) (bg_ny g) (bg_nz g) (fun k => avgC (bg_nx g) (bg_ny g) (bg_nz g) (fun k' =>
      prod4 (bg_beta g) (xe g k) (xe g k') (bg_smom1 g) (n + sh1 c w) (n + sh2 c w))))) (u niv w).
Proof.
  intros [Hx [Hy [Hz Hb]]] Hm Hw. exists (corr (bg_beta g) (get_asympt_prefactors g) c). split; [intros niv Hn; now apply corr_loc|]. intros niv w Hn _.
  refine (Ccv_ext _ _ _ _ (corr_tail (bg_beta g) Hb (get_asympt_prefactors g) c niv w Hn)). intros M. unfold outside.
  f_equal. f_equal; apply zsumC_ext; intros n _; symmetry; exact (term_loc g Hx Hy Hz Hm (n + sh1 c w) (n + sh2 c w)).
Qed.
Print Assumptions C73_local_correction_is_the_tail.
Theorem C73_q_correction_is_the_tail (g : bgen) (c : conv) (ql : list (Z * Z * Z)) : mesh_ok g -> mean_zero g ->
  (forall w, In w (bg_wn g) -> (Z.abs w <= zlen (bg_wn g))%Z) ->
  exists u : Z -> Z * Z * Z -> Z -> C, (forall niv, (0 <= niv)%Z -> get_asymptotic_correction_q g niv ql (name c) = Ok (map (fun q => map (u niv q) (bg_wn g)) ql)) /\
  forall niv q w, (0 <= niv)%Z -> In q ql -> In w (bg_wn g) ->
  Ccv (fun M => RtoC (-1 / bg_beta g) * outside niv M (fun n =>
    avgC (bg_nx g) (bg_ny g) (bg_nz g) (fun k =>
      prod4 (bg_beta g) (xe g k) (xe g (kq (bg_nx g) (bg_ny g) (bg_nz g) k q)) (bg_smom1 g) (n + sh1 c w) (n + sh2 c w)))) (u niv q w).
Proof.
  intros [Hx [Hy [Hz Hb]]] Hm Hw. exists (fun niv q => corr (bg_beta g) (get_asympt_prefactors_q g q) c niv). split; [intros niv Hn; now apply corr_q|]. intros niv q w Hn _ _.
  refine (Ccv_ext _ _ _ _ (corr_tail (bg_beta g) Hb (get_asympt_prefactors_q g q) c niv w Hn)). intros M. unfold outside.
  f_equal. f_equal; apply zsumC_ext; intros n _; symmetry; exact (term_q g Hx Hy Hz Hm q (n + sh1 c w) (n + sh2 c w)).
Qed.
Print Assumptions C73_q_correction_is_the_tail.

(** ** with the correction the bubble is exact up to terms of order 1/niv^4 *)
Theorem C73_q_bubble_error (g : bgen) (c : conv) (ql : list (Z * Z * Z)) (sig : Z -> C) : mesh_ok g -> mean_zero g ->
  (forall w, In w (bg_wn g) -> (Z.abs w <= zlen (bg_wn g))%Z) -> sig_tail (bg_beta g) (bg_smom0 g) (bg_smom1 g) sig ->
  let G := fun k n => green (bg_beta g) (bg_mu g) (bg_ek g k) sig n in
  let summand := fun q w n => avgC (bg_nx g) (bg_ny g) (bg_nz g) (fun k => G k (n + sh1 c w)%Z * G (kq (bg_nx g) (bg_ny g) (bg_nz g) k q) (n + sh2 c w)%Z) in
  exists u : Z -> Z * Z * Z -> Z -> C, (forall niv, (0 <= niv)%Z -> get_asymptotic_correction_q g niv ql (name c) = Ok (map (fun q => map (u niv q) (bg_wn g)) ql)) /\
  forall q w, In q ql -> In w (bg_wn g) -> exists chi K n0,
    Ccv (fun M => RtoC (-1 / bg_beta g) * zsumC (- Z.of_nat M) (Z.of_nat M) (summand q w)) chi /\
    forall niv, (n0 <= niv)%Z -> (Cmod (RtoC (-1 / bg_beta g) * zsumC (- niv) niv (summand q w) + u niv q w - chi)%C <= K / IZR niv ^ 4)%R.
Proof.
  intros [Hx [Hy [Hz Hb]]] Hm Hw Hs G summand. exists (fun niv q => corr (bg_beta g) (get_asympt_prefactors_q g q) c niv). split; [intros niv Hn; now apply corr_q|].
  intros q w _ _. destruct (q_order g Hb Hx Hy Hz Hm sig Hs q c w) as [K [n0 [HK H]]].
  exact (core_plus_corr (bg_beta g) Hb (get_asympt_prefactors_q g q) c w (summand q w) K n0 HK H).
Qed.
Print Assumptions C73_q_bubble_error.
Theorem C73_local_bubble_error (g : bgen) (c : conv) (sig : Z -> C) : mesh_ok g -> mean_zero g -> bg_wn g <> [] ->
  sig_tail (bg_beta g) (bg_smom0 g) (bg_smom1 g) sig ->
  let Gloc := fun n => avgC (bg_nx g) (bg_ny g) (bg_nz g) (fun k => green (bg_beta g) (bg_mu g) (bg_ek g k) sig n) in
  let summand := fun w n => Gloc (n + sh1 c w)%Z * Gloc (n + sh2 c w)%Z in
  exists u : Z -> Z -> C, (forall niv, (0 <= niv)%Z -> get_asymptotic_correction g niv (name c) = Ok (map (u niv) (bg_wn g))) /\
  forall w, In w (bg_wn g) -> exists chi K n0,
    Ccv (fun M => RtoC (-1 / bg_beta g) * zsumC (- Z.of_nat M) (Z.of_nat M) (summand w)) chi /\
    forall niv, (n0 <= niv)%Z -> (Cmod (RtoC (-1 / bg_beta g) * zsumC (- niv) niv (summand w) + u niv w - chi)%C <= K / IZR niv ^ 4)%R.
Proof.
  intros [Hx [Hy [Hz Hb]]] Hm Hw Hs Gloc summand. exists (corr (bg_beta g) (get_asympt_prefactors g) c). split; [intros niv Hn; now apply corr_loc|].
  intros w _. destruct (loc_order g Hb Hx Hy Hz Hm sig Hs c w) as [K [n0 [HK H]]].
  exact (core_plus_corr (bg_beta g) Hb (get_asympt_prefactors g) c w (summand w) K n0 HK H).
Qed.
Print Assumptions C73_local_bubble_error.

(** ** the correction vanishes for large windows *)
Theorem C73_correction_vanishes (g : bgen) (c : conv) (ql : list (Z * Z * Z)) : mesh_ok g -> bg_wn g <> [] ->
  (forall w, In w (bg_wn g) -> (Z.abs w <= zlen (bg_wn g))%Z) ->
  exists u uq, (forall niv, (0 <= niv)%Z -> get_asymptotic_correction g niv (name c) = Ok (map (u niv) (bg_wn g)) /\
       get_asymptotic_correction_q g niv ql (name c) = Ok (map (fun q => map (uq niv q) (bg_wn g)) ql)) /\
  forall w, In w (bg_wn g) -> Ccv (fun N => u (Z.of_nat N) w) (RtoC 0) /\ forall q, In q ql -> Ccv (fun N => uq (Z.of_nat N) q w) (RtoC 0).
Proof.
  intros [Hx [Hy [Hz Hb]]] Hw Hl. exists (corr (bg_beta g) (get_asympt_prefactors g) c), (fun niv q => corr (bg_beta g) (get_asympt_prefactors_q g q) c niv).
  split; [intros niv Hn; split; [now apply corr_loc|now apply corr_q]|]. intros w _. split; [now apply corr_vanishes|]. intros q _. now apply corr_vanishes.
Qed.
Print Assumptions C73_correction_vanishes.

(** ** the momentum average of the q corrections is the local correction *)
Theorem C73_q_average_is_local (g : bgen) (c : conv) (niv : Z) : mesh_ok g -> bg_wn g <> [] -> (0 <= niv)%Z ->
  (forall w, In w (bg_wn g) -> (Z.abs w <= zlen (bg_wn g))%Z) ->
  exists u uq, get_asymptotic_correction g niv (name c) = Ok (map u (bg_wn g)) /\
    get_asymptotic_correction_q g niv (mesh (bg_nx g) (bg_ny g) (bg_nz g)) (name c) = Ok (map (fun q => map (uq q) (bg_wn g)) (mesh (bg_nx g) (bg_ny g) (bg_nz g))) /\
    forall w, In w (bg_wn g) -> avgC (bg_nx g) (bg_ny g) (bg_nz g) (fun q => uq q w) = u w.
Proof.
  intros [Hx [Hy [Hz Hb]]] Hw Hn Hl. exists (corr (bg_beta g) (get_asympt_prefactors g) c niv), (fun q => corr (bg_beta g) (get_asympt_prefactors_q g q) c niv).
  split; [now apply corr_loc|split; [now apply corr_q|]]. intros w _. now apply corr_q_avg.
Qed.
Print Assumptions C73_q_average_is_local.

(** ** findings *)
(** Only mu - e(k) is physical, but two dispersions with the same mu - e(k) get different corrections when the mean is not zero. *)
Theorem C73_mean_energy_finding :
  let g e := BGen 1 1 1 (fun _ => e) 1 e 0 0 [0%Z] in
  (forall e, mesh_ok (g e)) /\ mean_zero (g 0%R) /\ ~ mean_zero (g 1%R) /\ (forall k, xe (g 0%R) k = xe (g 1%R) k) /\
  get_asymptotic_correction (g 0%R) 0 "minus" <> get_asymptotic_correction (g 1%R) 0 "minus".
Proof.
  intros g. assert (M : forall f, avgR 1 1 1 f = f (0, 0, 0)%Z) by (intros f; unfold avgR; change (mesh 1 1 1) with [(0, 0, 0)%Z]; change (IZR (1 * 1 * 1)) with 1%R; cbn [map fold_right]; field).
  split; [intros e; repeat split; cbn; try lia; lra|]. split; [unfold mean_zero; cbn; now rewrite M|]. split; [unfold mean_zero; cbn; rewrite M; lra|].
  split; [intros k; cbn; lra|]. change "minus"%string with (name Minus). rewrite !corr_loc by (try lia; discriminate). cbn [bg_wn map g].
  intros E. apply (f_equal (fun r => match r with Ok (x :: _) => Re x | _ => 0%R end)) in E. unfold corr in E. cbn [bg_beta g] in E.
  unfold get_asympt_prefactors, ek_mom2, ek_mom1 in E. cbn [g bg_nx bg_ny bg_nz bg_ek bg_mu bg_smom0 bg_smom1] in E. rewrite !mesh_mean_avg, !M in E.
  unfold exact_w in E. cbn [Z.eqb] in E. rewrite !zsumC_empty in E by lia.
  unfold RtoC, Cmult, Cminus, Cplus, Copp, Re in E. cbn [fst snd] in E. lra.
Qed.
Print Assumptions C73_mean_energy_finding.
(** The momentum-dependent version sizes its frequency array by the number of bosonic frequencies, not by the largest one: for a
    single frequency it raises, or, when the shifted slice wraps around, silently returns the sum of frequency zero. *)
Theorem C73_q_single_frequency_finding (e : Z * Z * Z -> R) (beta mu s0 s1 : R) (q : Z * Z * Z) :
  let g w := BGen 1 1 1 e beta mu s0 s1 [w] in
  get_asympt_sum_q (g 5%Z) 3 [q] "minus" = Raise ValueError /\
  get_asympt_sum_q (g 8%Z) 3 [q] "minus" = get_asympt_sum_q (g 0%Z) 3 [q] "minus".
Proof.
  intros g. unfold get_asympt_sum_q. cbn [bg_wn g bg_beta]. change (zlen [_]) with 1%Z.
  assert (H : exists v0 v1 v2 v3 v4 v5 v6 v7, v_arr beta (3 + 1) = [v0; v1; v2; v3; v4; v5; v6; v7]) by (repeat eexists).
  destruct H as (v0 & v1 & v2 & v3 & v4 & v5 & v6 & v7 & ->). split; reflexivity.
Qed.
Print Assumptions C73_q_single_frequency_finding.

(** ** the hypotheses can be met: two sites, energies +1 and -1, an interacting self-energy, three frequencies *)
Example ex_C73 : let g := BGen 2 1 1 (fun k => match k with (0, _, _)%Z => 1 | _ => -1 end)%R 10 1 0 2 [-1; 0; 1]%Z in
  let sig := fun n => (RtoC 0 - RtoC 2 / inu 10 n)%C in
  mesh_ok g /\ mean_zero g /\ bg_wn g <> [] /\ (forall w, In w (bg_wn g) -> (Z.abs w <= zlen (bg_wn g))%Z) /\ sig_tail (bg_beta g) (bg_smom0 g) (bg_smom1 g) sig.
Proof.
  intros g sig. split; [repeat split; cbn; try lia; lra|]. split; [unfold mean_zero, avgR; cbn [g bg_nx bg_ny bg_nz bg_ek]; change (mesh 2 1 1) with [(0, 0, 0)%Z; (1, 0, 0)%Z]; change (IZR (2 * 1 * 1)) with 2%R; cbn [map fold_right]; field|]. split; [discriminate|]. split.
  - intros w Hw. cbn in Hw. change (zlen (bg_wn g)) with 3%Z. lia.
  - exists 0%R, 0%Z. intros n _. cbn [g bg_beta bg_smom0 bg_smom1]. unfold sig. replace (_ - _)%C with (RtoC 0) by ring. rewrite Cmod_0. lra.
Qed.
