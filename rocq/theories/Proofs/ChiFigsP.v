(** Proofs for C118. *)
From Coq Require Import ZArith Reals List Lia Lra.
From Verif Require Import Base.PyBase Base.PyFacts Base.Arr Model.Matsubara Model.MaxEnt Model.SanityFigs Model.ChiFigs Spec.SanityFigsSpec Spec.ChiFigsSpec.
From Verif Require Import Proofs.MatsubaraP Proofs.SanityFigsP.
Import ListNotations.
Local Open Scope R_scope.

Lemma half1 n : ((2 * n + 1) / 2 = n)%Z.
Proof. symmetry. apply Z.div_unique with 1%Z; lia. Qed.
Lemma w_axis n : (0 <= n)%Z -> zlen (map IZR (wn n 0 false)) = (2 * n + 1)%Z /\ forall i, (0 <= i < 2 * n + 1)%Z -> zget (map IZR (wn n 0 false)) i = Some (IZR (i - n)).
Proof.
  intros P. split; [now rewrite zlen_map, zlen_wn|]. intros i Ri. rewrite zget_map, wn_get by lia. cbn. do 2 f_equal. lia.
Qed.
Lemma log_ok y n (g : Z -> R) : (0 <= n)%Z -> zlen y = (2 * n + 1)%Z -> (forall i, (0 <= i < 2 * n + 1)%Z -> zget y i = Some (g (i - n)%Z)) ->
  exists d, loglog_xy (map IZR (wn n 0 false)) y = Ok d /\ log_curve d n g.
Proof.
  intros P L V. destruct (@w_axis n P) as [La Va]. destruct (@plot_ok (map IZR (wn n 0 false)) y (2 * n + 1) (fun i => IZR (i - n)) (fun i => g (i - n)%Z) La L Va V) as (c & Ec & [Lc Vc]).
  destruct (@loglog_in _ _ _ Ec) as (d & Ed & I). exists d. split; [assumption|]. intros x z. rewrite I. cbn [fst snd]. split.
  - intros (J & X & Y). destruct (@In_zget _ c _ J) as (i & Ri & Ei). rewrite Lc in Ri. rewrite (Vc i Ri) in Ei. inversion Ei. subst x z. exists (i - n)%Z. apply lt_IZR in X. repeat split; auto; lia.
  - intros (w & Rw & -> & -> & Y). split; [|split; [apply IZR_lt; lia|assumption]]. specialize (Vc (n + w)%Z ltac:(lia)). replace (n + w - n)%Z with w in Vc by lia. apply zget_In in Vc. exact Vc.
Qed.
Lemma grid_re cd n (f : Z -> R * R) : wgrid cd n f -> zlen (map fst cd) = (2 * n + 1)%Z /\ forall i, (0 <= i < 2 * n + 1)%Z -> zget (map fst cd) i = Some (fst (f (i - n)%Z)).
Proof.
  intros [L V]. split; [now rewrite zlen_map|]. intros i Ri. rewrite zget_map. specialize (V (i - n)%Z ltac:(lia)). replace (n + (i - n))%Z with i in V by lia. rewrite V. reflexivity.
Qed.
Lemma chi_curve_ok cd n f : (0 <= n)%Z -> wgrid cd n f -> exists c, chi_curve cd = Ok c /\ real_curve c n f.
Proof.
  intros P H. destruct (@grid_re cd n f H) as [Lr Vr]. destruct (@w_axis n P) as [La Va]. unfold chi_curve. rewrite (proj1 H), half1. exact (@plot_ok _ _ (2 * n + 1) (fun i => IZR (i - n)) (fun i => fst (f (i - n)%Z)) La Lr Va Vr).
Qed.
Lemma chi_loglog_ok cd n f : (0 <= n)%Z -> wgrid cd n f -> exists c, chi_loglog cd = Ok c /\ log_curve c n (fun w => fst (f w)).
Proof.
  intros P H. destruct (@grid_re cd n f H) as [Lr Vr]. unfold chi_loglog. rewrite (proj1 H), half1. exact (@log_ok _ n (fun w => fst (f w)) P Lr Vr).
Qed.
(** the value of the asymptote *)
Lemma asy_val beta e_kin m : fst (cinv (csq (0.000001, 2 * PI / beta * IZR m))) * e_kin * 2 = asy beta e_kin m.
Proof.
  unfold asy, small, cinv, csq. cbn [fst snd]. set (w := 2 * PI / beta * IZR m). set (d := 0.000001). assert (D : 0 < d) by (unfold d; lra).
  replace ((d * d - w * w) * (d * d - w * w) + 2 * d * w * (2 * d * w)) with ((d * d + w * w) * (d * d + w * w)) by ring.
  assert (0 < d * d + w * w) by nra. field. nra.
Qed.
Lemma asy_curve beta e_kin n : (0 <= n)%Z -> exists d, loglog_xy (map IZR (wn n 0 false)) (asymptote beta e_kin n) = Ok d /\ log_curve d n (asy beta e_kin).
Proof.
  intros P. apply log_ok; [assumption|unfold asymptote; now rewrite zlen_map, zlen_wn|]. intros i Ri. unfold asymptote. rewrite zget_map, wn_get by lia. cbn [option_map]. rewrite asy_val. do 2 f_equal. lia.
Qed.
Lemma map_ok (F : list (R * R) -> res curve) (Q : curve -> Z -> (Z -> R * R) -> Prop) :
  (forall cd n f, (0 <= n)%Z -> wgrid cd n f -> exists c, F cd = Ok c /\ Q c n f) -> forall l, (forall cd, In cd l -> exists n f, (0 <= n)%Z /\ wgrid cd n f) ->
  exists r, mapM F l = Ok r /\ zlen r = zlen l /\ forall t cd n f, zget l t = Some cd -> (0 <= n)%Z -> wgrid cd n f -> exists c, zget r t = Some c /\ Q c n f.
Proof.
  intros HF l H. destruct (@mapM_build _ _ F l) as [r E]. { intros cd I. destruct (H cd I) as (n & f & P & G). destruct (HF cd n f P G) as (c & Ec & _). eauto. }
  exists r. split; [assumption|]. destruct (@mapM_zget _ _ _ _ _ E) as [L V]. split; [assumption|]. intros t cd n f Et P G. destruct (V t cd Et) as (c & Ec & Fc). exists c. split; [assumption|].
  destruct (HF cd n f P G) as (c' & Ec' & Qc). rewrite Fc in Ec'. inversion Ec'. subst. exact Qc.
Qed.
Lemma even_raises cd : (zlen cd mod 2 = 0)%Z -> chi_curve cd = Raise ValueError.
Proof.
  intros H. unfold chi_curve, plot_xy. rewrite !zlen_map, zlen_wn by (apply Z.div_pos; [apply zlen_nonneg|lia]). pose proof (Z.div_mod (zlen cd) 2 ltac:(lia)). case Z.eqb_spec; intros E; [lia|reflexivity].
Qed.
Lemma odd_grid (cd : list (R * R)) : (zlen cd mod 2 = 1)%Z -> exists f, wgrid cd (zlen cd / 2) f.
Proof.
  intros H. exists (fun v => match zget cd (zlen cd / 2 + v) with Some c => c | None => (0, 0) end). pose proof (Z.div_mod (zlen cd) 2 ltac:(lia)). split; [lia|].
  intros v Rv. destruct (@zget_in_range _ cd (zlen cd / 2 + v) ltac:(lia)) as [c E]. now rewrite E.
Qed.
Lemma curve_cases cd : (exists c, chi_curve cd = Ok c) \/ chi_curve cd = Raise ValueError.
Proof. unfold chi_curve, plot_xy. destruct (Z.eqb _ _); eauto. Qed.
