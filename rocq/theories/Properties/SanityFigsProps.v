(** C117: what the figures for inspection show: cuts through the susceptibility with its Ornstein-Zernike fit, local self-energies, self-energies along the Fermi surface. *)
From Coq Require Import ZArith Reals List Lia Lra.
From Verif Require Import Base.PyBase Base.PyFacts Base.Arr Model.Matsubara Model.KPath Model.MaxEnt Model.RealMesh Model.SanityFigs Spec.ShownKSpec Spec.SwkSpec Spec.LogChecksSpec Spec.SanityFigsSpec.
From Verif Require Import Proofs.ShownKP Proofs.RealMeshP Proofs.SanityFigsP.
Import ListNotations.
Local Open Scope R_scope.

(** The figure of the fit: for the susceptibility [f] and the fit [g] sampled on the same n x n x n3 lattice, the two cuts run through the middle of the other axis at qz = 0, over the momenta of the lattice; the third panel
    holds n*n3 points, at equally spaced places from 0 to 2 pi: the values at (q, q, qz) for ALL qz. *)
Definition shown (n n3 : Z) (f : R -> R -> R -> R) (p : oz_panels) : Prop :=
  curve_of (oz_y p) n (mom n) (fun i => f (mom n i) (mom n (n / 2)) 0) /\
  curve_of (oz_x p) n (mom n) (fun j => f (mom n (n / 2)) (mom n j) 0) /\
  curve_of (oz_diag p) (n * n3) (fun k => IZR k * (2 * PI / IZR (n * n3 - 1))) (fun k => f (mom n (k / n3)) (mom n (k / n3)) (mom n3 (k mod n3))).
Theorem C117_oz_panels (f g : R -> R -> R -> R) n n3 chi fit : (0 < n)%Z -> (0 < n3)%Z -> samples3 f n n n3 chi -> samples3 g n n n3 fit ->
  exists a b, plot_oz_fit n n chi fit = Ok (a, b) /\ shown n n3 f a /\ shown n n3 g b.
Proof.
  intros P P3 Hf Hg. destruct (@oz_ok f n n n3 chi Hf P P P3 eq_refl) as (a & Ea & Va). destruct (@oz_ok g n n n3 fit Hg P P P3 eq_refl) as (b & Eb & Vb).
  exists a, b. unfold plot_oz_fit. rewrite Ea. cbn [bind]. rewrite Eb. cbn [bind]. split; [reflexivity|]. split; assumption.
Qed.
(** The titles say q_y = pi and q_x = pi: true exactly for an even number of momenta. *)
Theorem C117_oz_titles n : (0 < n)%Z -> (mom n (n / 2) = PI <-> (n mod 2 = 0)%Z).
Proof.
  intros P. assert (N : 0 < IZR n) by now apply IZR_lt. assert (Hp := PI_RGT_0). pose proof (Z.div_mod n 2 ltac:(lia)) as D. unfold mom. split.
  - intros E. assert (Q : 2 * IZR (n / 2) = IZR n). { apply Rmult_eq_reg_l with PI; [|lra]. transitivity (2 * PI * IZR (n / 2) / IZR n * IZR n); [field; lra|]. rewrite E. reflexivity. }
    rewrite <- mult_IZR in Q. apply eq_IZR in Q. lia.
  - intros E. assert (Q : IZR n = 2 * IZR (n / 2)) by (rewrite <- mult_IZR; f_equal; lia). rewrite Q in N |- *. field. lra.
Qed.
(** The places in the third panel: only the first point stands at its momentum, every other one stands to the right of it; the last one, of momentum 2 pi (n-1)/n, stands at 2 pi. *)
Theorem C117_oz_diagonal_refuted n n3 k : (0 < n)%Z -> (0 < n3)%Z -> (1 < n * n3)%Z -> (0 < k < n * n3)%Z -> mom n (k / n3) < IZR k * (2 * PI / IZR (n * n3 - 1)).
Proof.
  intros P P3 N K. assert (Hp := PI_RGT_0). pose proof (Z.div_mod k n3 ltac:(lia)) as D. pose proof (Z.mod_pos_bound k n3 P3) as B. assert (Q0 : (0 <= k / n3)%Z) by (apply Z.div_pos; lia).
  assert (I : (k / n3 * (n * n3 - 1) < k * n)%Z) by nia. apply IZR_lt in I. rewrite !mult_IZR in I. assert (A1 : 0 < IZR n) by now apply IZR_lt. assert (A2 : 0 < IZR (n * n3 - 1)) by (apply IZR_lt; lia).
  unfold mom. apply Rmult_lt_reg_r with (IZR n * IZR (n * n3 - 1)); [nra|].
  replace (2 * PI * IZR (k / n3) / IZR n * (IZR n * IZR (n * n3 - 1))) with (2 * PI * (IZR (k / n3) * IZR (n * n3 - 1))) by (field; lra).
  replace (IZR k * (2 * PI / IZR (n * n3 - 1)) * (IZR n * IZR (n * n3 - 1))) with (2 * PI * (IZR k * IZR n)) by (field; lra). apply Rmult_lt_compat_l; lra.
Qed.
Theorem C117_oz_last n n3 : (0 < n)%Z -> (0 < n3)%Z -> (1 < n * n3)%Z -> IZR (n * n3 - 1) * (2 * PI / IZR (n * n3 - 1)) = 2 * PI /\ mom n ((n * n3 - 1) / n3) = 2 * PI * IZR (n - 1) / IZR n.
Proof.
  intros P P3 N. assert (A2 : 0 < IZR (n * n3 - 1)) by (apply IZR_lt; lia). split; [field; lra|]. unfold mom. do 3 f_equal. symmetry. apply Z.div_unique with (n3 - 1)%Z; lia.
Qed.
(** With more than one qz the second point of the third panel, titled q_y = q_x, is the value at (0, 0, 2 pi/n3). *)
Corollary C117_oz_all_qz_refuted (f : R -> R -> R -> R) n n3 p : (0 < n)%Z -> (1 < n3)%Z -> shown n n3 f p -> zget (oz_diag p) 1 = Some (2 * PI / IZR (n * n3 - 1), f 0 0 (mom n3 1)).
Proof.
  intros P P3 (_ & _ & _ & V). rewrite (V 1%Z) by nia. rewrite Z.div_small, Z.mod_small by lia. replace (mom n 0) with 0 by (unfold mom, Rdiv; ring). rewrite Rmult_1_l. reflexivity.
Qed.

(** The local self-energies: per self-energy, sampled at the frequencies -n .. n-1, real and imaginary part against the INDEX of the frequency; the logarithmic panels show the frequencies 0 < v with a positive real part resp. a
    non-zero imaginary part. *)
Definition sigma_shown (n : Z) (f : Z -> R * R) (p : sigma_panels) : Prop :=
  curve_of (s_re p) (2 * n) (fun i => IZR (i - n)) (fun i => fst (f (i - n)%Z)) /\
  curve_of (s_im p) (2 * n) (fun i => IZR (i - n)) (fun i => snd (f (i - n)%Z)) /\
  (forall x y, In (x, y) (s_re_log p) <-> exists v, (0 < v < n)%Z /\ x = IZR v /\ y = fst (f v) /\ 0 < y) /\
  (forall x y, In (x, y) (s_im_log p) <-> exists v, (0 < v < n)%Z /\ x = IZR v /\ y = Rabs (snd (f v)) /\ 0 < y).
Theorem C117_sigma siws : (forall s, In s siws -> exists n f, (0 <= n)%Z /\ vgrid s n f) ->
  exists ps, sigma_loc_checks siws = Ok ps /\ zlen ps = zlen siws /\ forall t s n f, zget siws t = Some s -> (0 <= n)%Z -> vgrid s n f -> exists p, zget ps t = Some p /\ sigma_shown n f p.
Proof.
  intros H. change (sigma_loc_checks siws) with (mapM panel_of siws). destruct (@mapM_build _ _ panel_of siws) as [ps E].
  { intros s I. destruct (H s I) as (n & f & P & G). destruct (@panel_ok s n f G P) as (p & Ep & _). eauto. }
  exists ps. split; [assumption|]. destruct (@mapM_zget _ _ _ _ _ E) as [L V]. split; [assumption|]. intros t s n f Et P G. destruct (V t s Et) as (p & Ep & F). exists p. split; [assumption|].
  destruct (@panel_ok s n f G P) as (p' & Ep' & Q). rewrite F in Ep'. inversion Ep'. subst. exact Q.
Qed.
Theorem C117_sigma_odd siws s : In s siws -> (zlen s mod 2 = 1)%Z -> sigma_loc_checks siws = Raise ValueError.
Proof.
  intros I H. change (sigma_loc_checks siws) with (mapM panel_of siws). apply (@mapM_value_error _ _ panel_of siws s); [|assumption|now apply panel_odd].
  intros y Iy. pose proof (Z.mod_pos_bound (zlen y) 2 ltac:(lia)). destruct (Z.eq_dec (zlen y mod 2) 0) as [Z0|Z0].
  - left. destruct (@grid_of y Z0) as [f G]. destruct (@panel_ok y _ f G) as (p & Ep & _); [apply Z.div_pos; [apply zlen_nonneg|lia]|]. eauto.
  - right. apply panel_odd. lia.
Qed.
(** The lowest fermionic frequency (index 0) is in no logarithmic panel, and a self-energy whose real part is nowhere positive there has an empty one. *)
Theorem C117_sigma_log_finding n f p : sigma_shown n f p ->
  (forall y, ~ In (0, y) (s_im_log p) /\ ~ In (0, y) (s_re_log p)) /\ ((forall v, (0 < v < n)%Z -> fst (f v) <= 0) -> s_re_log p = []).
Proof.
  intros (_ & _ & Vr & Vi). split.
  - intros y. split; intros I.
    + apply Vi in I. destruct I as (v & Rv & E & _). apply eq_IZR in E. lia.
    + apply Vr in I. destruct I as (v & Rv & E & _). apply eq_IZR in E. lia.
  - intros H. destruct (s_re_log p) as [|[x y] l] eqn:Q; [reflexivity|]. destruct (proj1 (Vr x y) (or_introl eq_refl)) as (v & Rv & -> & -> & Y). specialize (H v Rv). lra.
Qed.

(** The lines along the Fermi surface: one line per index pair in both panels, holding the real resp. imaginary part at qz = 0 at the frequencies of the window, in order; an empty list of pairs or an empty window stops the
    figure with an IndexError (which the program swallows). *)
Definition first_v (n lo : Z) : Z := Z.max lo (- n).
Definition count_v (n lo hi : Z) : Z := Z.max 0 (Z.min hi (n - 1) + 1 - first_v n lo).
Theorem C117_along f n1 n2 n3 n m inds lo hi : (0 < n3)%Z -> (0 <= n)%Z -> values_v f n1 n2 n3 n m -> (hi <> -1)%Z ->
  (forall i j, In (i, j) inds -> (0 <= i < n1)%Z /\ (0 <= j < n2)%Z) -> inds <> [] -> (exists v, (lo <= v <= hi)%Z /\ (- n <= v < n)%Z) ->
  exists re im, plot_along_ind m (2 * n) inds lo hi = Ok (re, im) /\ zlen re = zlen inds /\ zlen im = zlen inds /\
    forall t i j, zget inds t = Some (i, j) -> exists cr ci, zget re t = Some cr /\ zget im t = Some ci /\
      curve_of cr (count_v n lo hi) (fun k => IZR (first_v n lo + k)) (fun k => fst (f i j 0%Z (first_v n lo + k)%Z)) /\
      curve_of ci (count_v n lo hi) (fun k => IZR (first_v n lo + k)) (fun k => snd (f i j 0%Z (first_v n lo + k)%Z)).
Proof.
  intros P3 Pn H N I Ne (v & V1 & V2). destruct (@along_gen f n1 n2 n3 n m H P3 Pn lo hi inds N) as (re & im & E & L). { intros [i j] Q. now apply I. }
  exists re, im. split; [|exact L]. rewrite E. destruct inds as [|x l]; [congruence|]. rewrite zlen_cons. pose proof (zlen_nonneg l). destruct (Z.ltb_spec 0 (1 + zlen l)); [|lia]. destruct (Z.ltb_spec (Z.max lo (- n)) (Z.min hi (n - 1) + 1)); [reflexivity|lia].
Qed.
(** Without an upper end (-1) the window reaches to the last frequency. *)
Theorem C117_along_default m n inds lo : (0 <= n)%Z -> plot_along_ind m (2 * n) inds lo (-1) = plot_along_ind m (2 * n) inds lo n /\ count_v n lo n = Z.max 0 (n - first_v n lo).
Proof. intros P. split; [|unfold count_v; lia]. unfold plot_along_ind. rewrite half. cbn [Z.eqb Pos.eqb]. destruct (Z.eqb_spec n (-1)); [lia|reflexivity]. Qed.
(** All frequencies of the window are there. *)
Theorem C117_along_window n lo hi v : (lo <= v <= hi)%Z /\ (- n <= v < n)%Z <-> exists k, (0 <= k < count_v n lo hi)%Z /\ v = (first_v n lo + k)%Z.
Proof. unfold count_v, first_v. split; [intros; exists (v - Z.max lo (- n))%Z; lia|intros (k & K & ->); lia]. Qed.
Theorem C117_along_raises f n1 n2 n3 n m inds lo hi : (0 < n3)%Z -> (0 <= n)%Z -> values_v f n1 n2 n3 n m -> (hi <> -1)%Z ->
  (forall i j, In (i, j) inds -> (0 <= i < n1)%Z /\ (0 <= j < n2)%Z) -> inds = [] \/ (forall v, (lo <= v <= hi)%Z -> ~ (- n <= v < n)%Z) -> plot_along_ind m (2 * n) inds lo hi = Raise IndexError.
Proof.
  intros P3 Pn H N I Ne. destruct (@along_gen f n1 n2 n3 n m H P3 Pn lo hi inds N) as (re & im & E & L). { intros [i j] Q. now apply I. }
  rewrite E. destruct (Z.ltb_spec 0 (zlen inds)) as [Q|Q]; [|reflexivity]. destruct (Z.ltb_spec (Z.max lo (- n)) (Z.min hi (n - 1) + 1)) as [W|W]; [|reflexivity].
  exfalso. destruct Ne as [->|Ne]; [rewrite zlen_nil in Q; lia|]. apply (Ne (Z.max lo (- n))); lia.
Qed.

Print Assumptions C117_oz_panels.
Print Assumptions C117_oz_titles.
Print Assumptions C117_oz_diagonal_refuted.
Print Assumptions C117_oz_last.
Print Assumptions C117_oz_all_qz_refuted.
Print Assumptions C117_sigma.
Print Assumptions C117_sigma_odd.
Print Assumptions C117_sigma_log_finding.
Print Assumptions C117_along.
Print Assumptions C117_along_default.
Print Assumptions C117_along_window.
Print Assumptions C117_along_raises.

(** Non-vacuity *)
Example ex_samples : samples3 (fun x y z => x) 2 2 1 [[[mom 2 0]; [mom 2 0]]; [[mom 2 1]; [mom 2 1]]].
Proof.
  split; [apply shape3b_ok; reflexivity|]. intros i j l Ri Rj Rl. assert (i = 0 \/ i = 1)%Z as [-> | ->] by lia; assert (j = 0 \/ j = 1)%Z as [-> | ->] by lia; replace l with 0%Z by lia; reflexivity.
Qed.
Example ex_titles : mom 4 (4 / 2) = PI /\ mom 5 (5 / 2) <> PI.
Proof. split; [now apply C117_oz_titles|]. intros E. apply C117_oz_titles in E; [discriminate|lia]. Qed.
Example ex_grid : vgrid [(1, 2); (1, -2)] 1 (fun v => if Z.ltb v 0 then (1, 2) else (1, -2)).
Proof. split; [reflexivity|]. intros v Rv. assert (v = -1 \/ v = 0)%Z as [-> | ->] by lia; reflexivity. Qed.
Example ex_values : values_v (fun _ _ _ v => if Z.ltb v 0 then (1, 2) else (1, -2)) 1 1 1 1 [[[[(1, 2); (1, -2)]]]].
Proof.
  split; [split; [apply shape3b_ok; reflexivity|]|].
  - intros i j l s E. assert (R : In s [[(1, 2); (1, -2)]]). { unfold get3, get2 in E. destruct (zget _ i) as [r|] eqn:Ei; cbn in E; [|discriminate]. apply zget_In in Ei. destruct Ei as [<-|[]]. destruct (zget _ j) as [c|] eqn:Ej; cbn in E; [|discriminate]. apply zget_In in Ej. destruct Ej as [<-|[]]. now apply zget_In in E. }
    destruct R as [<-|[]]. reflexivity.
  - intros i j l v Ri Rj Rl Rv. replace i with 0%Z by lia. replace j with 0%Z by lia. replace l with 0%Z by lia. assert (v = -1 \/ v = 0)%Z as [-> | ->] by lia; reflexivity.
Qed.
Example ex_along : exists re im, plot_along_ind [[[[(1, 2); (1, -2)]]]] 2 [(0%Z, 0%Z)] 0 20 = Ok (re, im) /\ zlen re = 1%Z.
Proof.
  destruct (@C117_along _ 1 1 1 1 _ [(0%Z, 0%Z)] 0 20 ltac:(lia) ltac:(lia) ex_values ltac:(lia)) as (re & im & E & L & _).
  - intros i j [Q|[]]. inversion Q. lia.
  - discriminate.
  - exists 0%Z. lia.
  - exists re, im. split; [exact E|exact L].
Qed.
