(** C116: what the log says about the local Green function and about memory. *)
From Coq Require Import ZArith Reals List String Lia Lra.
From Verif Require Import Base.PyBase Base.PyFacts Model.Matsubara Model.RankFiles Model.RunLog Model.CliTools Model.Config Model.LogChecks Spec.LogChecksSpec Proofs.MatsubaraP Proofs.RunLogTimeP Proofs.LogChecksP.
Import ListNotations.
Set Implicit Arguments.
Local Open Scope R_scope.

(** ** The check of the local Green function *)
(** The number in the message is the largest distance at the frequencies both arrays have; it is zero exactly if they agree there. *)
Theorem C116_gloc : forall giw g_loc n1 n2 f h, vgrid giw n1 f -> vgrid g_loc n2 h -> (0 < n1)%Z -> (0 < n2)%Z ->
  exists d, gloc_diff giw g_loc = Ok d /\ largest_dist (Z.min n1 n2) f h d /\ (d = 0 <-> forall v, (- Z.min n1 n2 <= v < Z.min n1 n2)%Z -> f v = h v).
Proof.
  intros giw g_loc n1 n2 f h H1 H2 P1 P2. destruct (@diff_run giw g_loc n1 n2 f h H1 H2 P1 P2) as (d & E & L). exists d. split; [assumption|]. split; [assumption|]. apply (largest_zero _ _ _ _ L).
Qed.
Print Assumptions C116_gloc.
(** The check never stops the run, however large the difference; its text has the difference and both mu with four decimals. *)
Theorem C116_messages : forall giw g_loc n1 n2 f h mu_dmft mu, vgrid giw n1 f -> vgrid g_loc n2 h -> (0 < n1)%Z -> (0 < n2)%Z ->
  exists d k, largest_dist (Z.min n1 n2) f h d /\ Rabs (IZR k - 10000 * d) <= 1 / 2 /\
  check_gloc_dmft giw g_loc mu_dmft mu = Ok ["Checking gloc: max_diff=" ++ fmt0 0 (k / 10000) ++ "." ++ fmt0 4 (k mod 10000);
    "Checking mu: mu_input=" ++ fmt_4f mu_dmft ++ "; mu_dmft=" ++ fmt_4f mu]%string.
Proof.
  intros giw g_loc n1 n2 f h mu_dmft mu H1 H2 P1 P2. destruct (@diff_run giw g_loc n1 n2 f h H1 H2 P1 P2) as (d & E & L). exists d, (py_round (d * 10000)). split; [assumption|]. destruct (largest_zero _ _ _ _ L) as [Pd _]. split.
  - replace (10000 * d) with (d * 10000) by ring. apply py_round_near.
  - unfold check_gloc_dmft. rewrite E. cbn [bind]. rewrite (fmt_4f_at d Pd). reflexivity.
Qed.
Print Assumptions C116_messages.
(** Refuted: a difference is not always visible.  Up to 1/20000 the message is the one of equal arrays. *)
Theorem C116_silent_refuted : forall giw g_loc n1 n2 f h mu_dmft mu, vgrid giw n1 f -> vgrid g_loc n2 h -> (0 < n1)%Z -> (0 < n2)%Z ->
  (forall v, (- Z.min n1 n2 <= v < Z.min n1 n2)%Z -> dist (f v) (h v) <= / 20000) ->
  check_gloc_dmft giw g_loc mu_dmft mu = Ok ["Checking gloc: max_diff=0.0000"; "Checking mu: mu_input=" ++ fmt_4f mu_dmft ++ "; mu_dmft=" ++ fmt_4f mu]%string.
Proof.
  intros giw g_loc n1 n2 f h mu_dmft mu H1 H2 P1 P2 S. destruct (@diff_run giw g_loc n1 n2 f h H1 H2 P1 P2) as (d & E & L). destruct (largest_zero _ _ _ _ L) as [Pd _]. destruct L as [(v & Rv & Ed) _]. specialize (S v Rv).
  unfold check_gloc_dmft. rewrite E. cbn [bind]. rewrite (fmt_4f_small d) by lra. reflexivity.
Qed.
Print Assumptions C116_silent_refuted.
(** Frequencies only one array has do not matter. *)
Theorem C116_window_finding : forall giw g_loc g_loc' n1 n2 n2' f h h', vgrid giw n1 f -> vgrid g_loc n2 h -> vgrid g_loc' n2' h' -> (0 < n1 <= n2)%Z -> (n1 <= n2')%Z ->
  (forall v, (- n1 <= v < n1)%Z -> h v = h' v) -> gloc_diff giw g_loc = gloc_diff giw g_loc'.
Proof.
  intros giw g_loc g_loc' n1 n2 n2' f h h' H1 H2 H2' P1 P2 Eq. destruct (@diff_run giw g_loc n1 n2 f h H1 H2 ltac:(lia) ltac:(lia)) as (d & E & L). destruct (@diff_run giw g_loc' n1 n2' f h' H1 H2' ltac:(lia) ltac:(lia)) as (d' & E' & L').
  rewrite Z.min_l in L by lia. rewrite Z.min_l in L' by lia. rewrite E, E'. f_equal. exact (largest_unique _ _ _ _ _ _ Eq L L').
Qed.
Print Assumptions C116_window_finding.
(** Without any frequency the check raises. *)
Theorem C116_empty_finding : forall giw g_loc n1 n2 f h mu_dmft mu, vgrid giw n1 f -> vgrid g_loc n2 h -> (n1 = 0 \/ n2 = 0)%Z -> check_gloc_dmft giw g_loc mu_dmft mu = Raise ValueError.
Proof. intros giw g_loc n1 n2 f h mu_dmft mu H1 H2 Z. unfold check_gloc_dmft. now rewrite (@diff_empty giw g_loc n1 n2 f h H1 H2 Z). Qed.
Print Assumptions C116_empty_finding.

(** ** The estimated memory *)
(** For every q a three-leg vertex on the core frequencies, a bubble on all frequencies of the vertex; for every k a Green function with niv_full + niv_asympt frequencies on either side. *)
Theorem C116_estimates : forall nq nk b, (0 <= niw_core b)%Z -> (0 <= niv_core b)%Z -> (0 <= niv_shell b)%Z -> (0 <= niv_full b + niv_asympt b)%Z ->
  e_vrg (estimated_memory nq nk b) = gb (nq * zlen (wn (niw_core b) 0 false) * zlen (vn (niv_core b) 0 false)) /\
  e_chi0q (estimated_memory nq nk b) = gb (nq * zlen (wn (niw_core b) 0 false) * zlen (vn (niv_full b) 0 false)) /\
  e_giwk (estimated_memory nq nk b) = gb (nk * zlen (vn (niv_full b + niv_asympt b) 0 false)).
Proof.
  intros nq nk b Hw Hv Hs Ha. assert (Hf : (0 <= niv_full b)%Z) by (unfold niv_full; lia). unfold estimated_memory, gb. cbn [e_vrg e_chi0q e_giwk]. rewrite zlen_wn, !zlen_vn by lia.
  repeat split; f_equal; f_equal; ring.
Qed.
Print Assumptions C116_estimates.
(** The vertex F_cond of the optical conductivity has shape q, w', w, v with the frequency ranges of the settings: the estimate is too large at least by the factor 2*niv_core. *)
Theorem C116_fcond_refuted : forall nq nk o b o' b', set_frequency_ranges o b = Ok (o', b') -> (0 <= nq)%Z -> (0 <= niw_vert o')%Z -> (0 <= niw_cond o')%Z -> (0 <= niv_vert o')%Z ->
  IZR (2 * niv_core b) * gb (nq * zlen (wn (niw_vert o') 0 false) * zlen (wn (niw_cond o') 0 false) * zlen (vn (niv_vert o') 0 false)) <= e_fcond (estimated_memory nq nk b').
Proof.
  intros nq nk o b o' b' E Hq Hwv Hc Hv. rewrite !zlen_wn, zlen_vn by lia. unfold set_frequency_ranges in E.
  destruct (if (niw_vert o =? -1)%Z then _ else _) as [wv|] eqn:Ew; [|discriminate]. cbn [bind] in E. destruct (if (niw_cond o =? -1)%Z then _ else _) as [c|] eqn:Ec; [|discriminate]. cbn [bind] in E.
  assert (Lw : (wv <= niw_core b)%Z). { clear - Ew. destruct (Z.eqb_spec (niw_vert o) (-1)); [inversion Ew; lia|]. destruct (Z.leb_spec (niw_vert o) (niw_core b)); [|discriminate]. inversion Ew. subst. assumption. }
  set (b2 := if (niv_asympt b <=? _)%Z then _ else _) in E.   assert (Eb : niw_core b2 = niw_core b /\ niv_core b2 = niv_core b). { clear. subst b2. match goal with |- context [if ?x then _ else _] => destruct (x : bool) end; split; reflexivity. } destruct Eb as [E1 E2]. clearbody b2. inversion E; subst o' b'; clear E. cbn [niw_vert niw_cond niv_vert] in *.
  unfold estimated_memory, gb. cbn [e_fcond]. rewrite E1, E2. unfold Rdiv. rewrite <- Rmult_assoc, <- mult_IZR. apply Rmult_le_compat_r; [lra|]. apply IZR_le.
  pose proof (@fcond_bound nq (niw_core b) (niv_core b) wv c (niv_core b - c) Hq ltac:(lia) Hc eq_refl Hv) as B. lia.
Qed.
Print Assumptions C116_fcond_refuted.

(** ** Concrete cases *)
Definition ex_giw : list (R * R) := [(0, 1); (0, -1)].
Definition ex_gloc : list (R * R) := [(5, 0); (0, 1); (3, 3); (7, 0)].
Lemma ex_v1 : vgrid ex_giw 1 (fun v => if (v =? -1)%Z then (0, 1) else (0, -1)).
Proof. split; [reflexivity|]. intros v Hv. assert (Q : (v = -1 \/ v = 0)%Z) by lia. destruct Q as [->| ->]; reflexivity. Qed.
Lemma ex_v2 : vgrid ex_gloc 2 (fun v => if (v =? -2)%Z then (5, 0) else if (v =? -1)%Z then (0, 1) else if (v =? 0)%Z then (3, 3) else (7, 0)).
Proof. split; [reflexivity|]. intros v Hv. assert (Q : (v = -2 \/ v = -1 \/ v = 0 \/ v = 1)%Z) by lia. destruct Q as [->|[->|[->| ->]]]; reflexivity. Qed.
Example C116_ex_gloc : gloc_diff ex_giw ex_gloc = Ok 5.
Proof.
  destruct (C116_gloc ex_v1 ex_v2 eq_refl eq_refl) as (d & E & [(v & Rv & Ed) M] & _). rewrite E. f_equal. cbn in Rv, M.
  assert (D : dist (0, -1) (3, 3) = 5). { unfold dist. cbn. replace ((0 - 3) * (0 - 3) + (-1 - 3) * (-1 - 3)) with (5 * 5) by ring. apply sqrt_square. lra. }
  assert (Q : (v = -1 \/ v = 0)%Z) by lia. destruct Q as [->| ->]; cbn in Ed.
  - specialize (M 0%Z ltac:(lia)). cbn in M. rewrite D in M. assert (dist (0, 1) (0, 1) = 0) by now apply dist_zero. lra.
  - now rewrite <- D.
Qed.
Example C116_ex_fcond : exists o' b', set_frequency_ranges (Optics (-1) (-1) (-1) (-1) (-1)) (Box 10 8 0 30) = Ok (o', b') /\ niw_vert o' = 10%Z /\ niw_cond o' = 5%Z /\ niv_vert o' = 3%Z.
Proof. do 2 eexists. split; [reflexivity|]. repeat split. Qed.
