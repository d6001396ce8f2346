(** C118: the figure with the checks of the susceptibility. *)
From Coq Require Import ZArith Reals List Lia Lra.
From Verif Require Import Base.PyBase Base.PyFacts Base.Arr Model.Matsubara Model.MaxEnt Model.SanityFigs Model.ChiFigs Spec.SanityFigsSpec Spec.ChiFigsSpec.
From Verif Require Import Proofs.SanityFigsP Proofs.ChiFigsP.
Import ListNotations.
Local Open Scope R_scope.

(** Every susceptibility, given at the frequencies -n .. n, is shown by its real part against the index of the frequency, in the logarithmic panels at the positive frequencies where it is positive; both logarithmic panels hold
    the same asymptote, up to the index that is the LENGTH of the first density susceptibility. *)
Theorem C118_panels chi_dens chi_magn beta e_kin first : zget chi_dens 0 = Some first ->
  (forall cd, In cd chi_dens \/ In cd chi_magn -> exists n f, (0 <= n)%Z /\ wgrid cd n f) ->
  exists fig, chi_checks chi_dens chi_magn beta e_kin = Ok fig /\
    zlen (c_dens fig) = zlen chi_dens /\ zlen (c_magn fig) = zlen chi_magn /\ zlen (c_dens_log fig) = zlen chi_dens /\ zlen (c_magn_log fig) = zlen chi_magn /\
    (forall t cd n f, zget chi_dens t = Some cd -> (0 <= n)%Z -> wgrid cd n f -> exists c d, zget (c_dens fig) t = Some c /\ real_curve c n f /\ zget (c_dens_log fig) t = Some d /\ log_curve d n (fun w => fst (f w))) /\
    (forall t cd n f, zget chi_magn t = Some cd -> (0 <= n)%Z -> wgrid cd n f -> exists c d, zget (c_magn fig) t = Some c /\ real_curve c n f /\ zget (c_magn_log fig) t = Some d /\ log_curve d n (fun w => fst (f w))) /\
    log_curve (c_dens_asy fig) (zlen first) (asy beta e_kin) /\ log_curve (c_magn_asy fig) (zlen first) (asy beta e_kin).
Proof.
  intros F H. assert (HD : forall cd, In cd chi_dens -> exists n f, (0 <= n)%Z /\ wgrid cd n f) by auto. assert (HM : forall cd, In cd chi_magn -> exists n f, (0 <= n)%Z /\ wgrid cd n f) by auto.
  destruct (@map_ok chi_curve real_curve chi_curve_ok chi_dens HD) as (a & Ea & La & Va). destruct (@map_ok chi_curve real_curve chi_curve_ok chi_magn HM) as (b & Eb & Lb & Vb).
  destruct (@map_ok chi_loglog (fun c n f => log_curve c n (fun w => fst (f w))) chi_loglog_ok chi_dens HD) as (c & Ec & Lc & Vc). destruct (@map_ok chi_loglog (fun c n f => log_curve c n (fun w => fst (f w))) chi_loglog_ok chi_magn HM) as (d & Ed & Ld & Vd).
  destruct (@asy_curve beta e_kin (zlen first) (zlen_nonneg _)) as (e & Ee & Ve).
  exists (ChiFigure a b c e d e). unfold chi_checks. rewrite (@py_get_nonneg _ chi_dens 0 first ltac:(lia) F). cbn [bind]. rewrite Ea. cbn [bind]. rewrite Eb. cbn [bind]. rewrite Ec. cbn [bind]. rewrite Ee. cbn [bind]. rewrite Ed. cbn [bind].
  split; [reflexivity|]. cbn. repeat (split; [assumption|]). split; [|split; [|split; assumption]].
  - intros t cd n f Et P G. destruct (Va t cd n f Et P G) as (x & Ex & Qx). destruct (Vc t cd n f Et P G) as (y & Ey & Qy). exists x, y. auto.
  - intros t cd n f Et P G. destruct (Vb t cd n f Et P G) as (x & Ex & Qx). destruct (Vd t cd n f Et P G) as (y & Ey & Qy). exists x, y. auto.
Qed.
(** The asymptote is -2 e_kin / w^2 up to the relative error 3 (small / w)^2. *)
Theorem C118_tail beta e_kin m : 0 < beta -> (0 < m)%Z -> let w := 2 * PI / beta * IZR m in Rabs (asy beta e_kin m - - 2 * e_kin / (w * w)) <= Rabs (2 * e_kin / (w * w)) * (3 * (small * small) / (w * w)).
Proof.
  intros B M w. assert (Hp := PI_RGT_0). assert (Hm : 0 < IZR m) by now apply IZR_lt. assert (W : 0 < w) by (unfold w; apply Rmult_lt_0_compat; [apply Rdiv_lt_0_compat; lra|lra]).
  unfold asy. fold w. assert (S : 0 < small) by (unfold small; lra). assert (W2 : 0 < w * w) by nra. assert (S2 : 0 < small * small) by nra. set (s := small * small) in *. set (q := w * w) in *.
  replace (2 * e_kin * (s - q) / ((s + q) * (s + q)) - - 2 * e_kin / q) with (2 * e_kin / q * ((3 * s * q + s * s) / ((s + q) * (s + q)))) by (field; split; lra).
  rewrite Rabs_mult. apply Rmult_le_compat_l; [apply Rabs_pos|]. assert (D : 0 < (s + q) * (s + q)) by nra. rewrite Rabs_pos_eq by (apply Rle_mult_inv_pos; [nra|assumption]).
  apply Rmult_le_reg_r with ((s + q) * (s + q) * q); [nra|]. replace ((3 * s * q + s * s) / ((s + q) * (s + q)) * ((s + q) * (s + q) * q)) with ((3 * s * q + s * s) * q) by (field; lra).
  replace (3 * s / q * ((s + q) * (s + q) * q)) with (3 * s * ((s + q) * (s + q))) by (field; lra). nra.
Qed.
(** For beta < 2 pi 10^6 the asymptote is visible exactly if the kinetic energy is negative: then at every index up to [n], else nowhere. *)
Theorem C118_visible beta e_kin c n : 0 < beta < 2 * PI / small -> log_curve c n (asy beta e_kin) -> (e_kin < 0 -> forall w, (0 < w <= n)%Z -> In (IZR w, asy beta e_kin w) c) /\ (0 <= e_kin -> c = []).
Proof.
  intros [B1 B2] V. assert (S : 0 < small) by (unfold small; lra). assert (Hp := PI_RGT_0).
  assert (A : forall m, (0 < m)%Z -> exists k, 0 < k /\ asy beta e_kin m = - e_kin * k).
  { intros m M. assert (Hm : 1 <= IZR m) by (apply IZR_le; lia). set (w := 2 * PI / beta * IZR m). assert (W : small < w).
    { unfold w. assert (Q : small < 2 * PI / beta). { apply Rmult_lt_reg_r with beta; [lra|]. replace (2 * PI / beta * beta) with (2 * PI) by (field; lra). apply Rmult_lt_compat_r with (r := small) in B2; [|lra]. replace (2 * PI / small * small) with (2 * PI) in B2 by (field; lra). lra. } nra. }
    exists (2 * (w * w - small * small) / ((small * small + w * w) * (small * small + w * w))). split.
    - apply Rdiv_lt_0_compat; [nra|]. assert (0 < small * small) by nra. assert (0 < w * w) by nra. nra.
    - unfold asy. fold w. field. assert (0 < small * small) by nra. assert (0 < w * w) by nra. lra. }
  split.
  - intros E w Rw. apply V. exists w. destruct (A w ltac:(lia)) as (k & K & ->). repeat split; try lia; try reflexivity. nra.
  - intros E. destruct c as [|[x y] l]; [reflexivity|]. destruct (proj1 (V x y) (or_introl eq_refl)) as (w & Rw & -> & -> & Y). destruct (A w ltac:(lia)) as (k & K & Q). rewrite Q in Y. nra.
Qed.
(** The asymptote goes on to 2n+1, beyond the data, which end at n. *)
Corollary C118_range_finding beta e_kin c (first : list (R * R)) n f : 0 < beta < 2 * PI / small -> e_kin < 0 -> (0 <= n)%Z -> wgrid first n f -> log_curve c (zlen first) (asy beta e_kin) ->
  exists y, In (IZR (2 * n + 1), y) c.
Proof. intros B E P [L _] V. rewrite L in V. eexists. apply (proj1 (@C118_visible beta e_kin c _ B V) E). lia. Qed.
(** The static susceptibility and negative values are in no logarithmic panel. *)
Theorem C118_static_finding c n g : log_curve c n g -> (forall y, ~ In (0, y) c) /\ forall x y, In (x, y) c -> 0 < y.
Proof.
  intros V. split.
  - intros y I. apply V in I. destruct I as (w & Rw & E & _). apply eq_IZR in E. lia.
  - intros x y I. apply V in I. destruct I as (w & _ & _ & _ & Y). assumption.
Qed.
(** An even number of frequencies, or no density susceptibility, stops the figure. *)
Theorem C118_even_raises chi_dens chi_magn beta e_kin cd : chi_dens <> [] -> In cd chi_dens \/ In cd chi_magn -> (zlen cd mod 2 = 0)%Z -> chi_checks chi_dens chi_magn beta e_kin = Raise ValueError.
Proof.
  intros N I H. unfold chi_checks. destruct chi_dens as [|x l]; [congruence|]. rewrite (@py_get_nonneg _ (x :: l) 0 x ltac:(lia) eq_refl). cbn [bind].
  assert (K : forall m, In cd m -> mapM chi_curve m = Raise ValueError). { intros m Im. apply (@mapM_value_error _ _ chi_curve m cd); [intros y _; apply curve_cases|assumption|now apply even_raises]. }
  assert (K2 : forall m, (exists r, mapM chi_curve m = Ok r) \/ mapM chi_curve m = Raise ValueError).
  { induction m as [|y m IH]; [left; eexists; reflexivity|]. cbn [mapM]. destruct (curve_cases y) as [[c Ec]|Ec]; rewrite Ec; cbn [bind]; [|now right]. destruct IH as [[r Er]|Er]; rewrite Er; cbn [bind]; eauto. }
  destruct I as [I|I]; [rewrite (K _ I); reflexivity|]. destruct (K2 (x :: l)) as [[r Er]|Er]; rewrite Er; cbn [bind]; [|reflexivity]. rewrite (K _ I). reflexivity.
Qed.
Theorem C118_no_data chi_magn beta e_kin : chi_checks [] chi_magn beta e_kin = Raise IndexError.
Proof. reflexivity. Qed.

Print Assumptions C118_panels.
Print Assumptions C118_tail.
Print Assumptions C118_visible.
Print Assumptions C118_range_finding.
Print Assumptions C118_static_finding.
Print Assumptions C118_even_raises.
Print Assumptions C118_no_data.

(** Non-vacuity *)
Definition ex_chi : list (R * R) := [(1, 0); (3, 0); (1, 0)].
Example C118_ex_grid : wgrid ex_chi 1 (fun w => if Z.eqb w 0 then (3, 0) else (1, 0)).
Proof. split; [reflexivity|]. intros w Rw. assert (w = -1 \/ w = 0 \/ w = 1)%Z as [-> | [-> | ->]] by lia; reflexivity. Qed.
Example C118_ex_fig : exists fig, chi_checks [ex_chi] [ex_chi; ex_chi] 10 (-1) = Ok fig /\ zlen (c_magn fig) = 2%Z /\ exists y, In (3, y) (c_dens_asy fig).
Proof.
  destruct (@C118_panels [ex_chi] [ex_chi; ex_chi] 10 (-1) ex_chi eq_refl) as (fig & E & _ & L & _ & _ & _ & _ & V & _).
  - intros cd I. exists 1%Z, (fun w => if Z.eqb w 0 then (3, 0) else (1, 0)). split; [lia|]. assert (cd = ex_chi) as -> by (cbn in I; intuition congruence). apply C118_ex_grid.
  - exists fig. split; [assumption|]. split; [assumption|]. assert (B : 0 < 10 < 2 * PI / small). { split; [lra|]. unfold small. pose proof PI2_1. pose proof PI_RGT_0. unfold PI2 in *. apply Rmult_lt_reg_r with 0.000001; [lra|]. replace (2 * PI / 0.000001 * 0.000001) with (2 * PI) by (field; lra). lra. }
    destruct (@C118_range_finding 10 (-1) _ ex_chi 1 _ B ltac:(lra) ltac:(lia) C118_ex_grid V) as [y I]. exists y. exact I.
Qed.
