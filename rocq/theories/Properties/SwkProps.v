(** Property C114: the analysis of a continued momentum-dependent self-energy: Green function, filling, chemical potentials and the panel that shows them
    (postproc/real_frequency_two_point.py, postproc/plot_siwk_cont.py). *)
From Coq Require Import ZArith Reals List Lia Lra Sorted.
From Verif Require Import Base.PyBase Base.Arr Base.PyFacts Model.BrillouinZone Model.KPath Model.MaxEnt Model.ShownK Model.SwkAnalysis.
From Verif Require Import Spec.ShownKSpec Spec.SwkSpec Proofs.SwkP Proofs.Swk2P Proofs.Swk3P Proofs.Swk4P.
Import ListNotations.
Set Implicit Arguments.
Local Open Scope R_scope.

(** ** The cut-off *)
(** The real part of every entry is kept; an imaginary part smaller than the cut-off c becomes -c, every other entry is unchanged. *)
Theorem C114_cut : forall c (S : arr4 C) i j l t s, 0 < c -> get4 S i j l t = Some s ->
  exists s', get4 (cut_small c S) i j l t = Some s' /\ fst s' = fst s /\ c <= Rabs (snd s') /\ (Rabs (snd s) < c -> snd s' = - c) /\ (c <= Rabs (snd s) -> s' = s).
Proof. intros c S i j l t s Hc E. destruct (@cut_entries c S i j l t s Hc E) as (s' & E' & A & B & D & F & _). exists s'. tauto. Qed.
Print Assumptions C114_cut.
(** A self-energy without positive imaginary parts has damping of at least c everywhere afterwards. *)
Theorem C114_damped : forall c (S : arr4 C), 0 < c -> causal S -> damped c (cut_small c S).
Proof. exact cut_damped. Qed.
Print Assumptions C114_damped.
(** The cut-off does not make a self-energy causal: a positive imaginary part of at least c stays. *)
Theorem C114_causal_refuted : forall c, 0 < c -> exists S : arr4 C, shape4 S 1 1 1 1 /\ ~ causal (cut_small c S) /\ cut_small c S = S.
Proof.
  intros c Hc. exists [[[[(0, c)]]]]. assert (E : cut_small c [[[[(0, c)]]]] = [[[[(0, c)]]]]).
  { unfold cut_small, map4. cbn. unfold cut_entry. cbn. destruct (Rlt_dec (Rabs c) c) as [L|L]; [rewrite Rabs_right in L; lra|reflexivity]. }
  split; [|split; [|exact E]].
  - split; [split; [reflexivity|intros r [<-|[]]; split; [reflexivity|intros q [<-|[]]; reflexivity]]|]. intros i j l s Es.
    assert (S1 : shape3 [[[[(0, c)]]]] 1 1 1) by (split; [reflexivity|intros r [<-|[]]; split; [reflexivity|intros q [<-|[]]; reflexivity]]).
    destruct (get3_inv _ _ _ S1 Es) as (Hi & Hj & Hl). assert (i = 0%Z) by lia. assert (j = 0%Z) by lia. assert (l = 0%Z) by lia. subst. inversion Es. reflexivity.
  - rewrite E. intros H. specialize (H 0%Z 0%Z 0%Z 0%Z (0, c) eq_refl). cbn in H. lra.
Qed.
Print Assumptions C114_causal_refuted.

(** ** The Green function *)
(** Every entry times w + mu - e(k) - Sigma(k,w) is one. *)
Theorem C114_dyson : forall mu S w ek n1 n2 n3, shape3 ek n1 n2 n3 -> shape4 S n1 n2 n3 (zlen w) -> (0 < n1)%Z -> (0 < n2)%Z ->
  exists G, get_giwk mu S w ek = Ok G /\ shape4 G n1 n2 n3 (zlen w) /\
    forall i j l t e s x, get3 ek i j l = Some e -> get4 S i j l t = Some s -> zget w t = Some x -> denom mu e s x <> (0, 0) ->
      exists g, get4 G i j l t = Some g /\ inverse_of g (denom mu e s x).
Proof.
  intros mu S w ek n1 n2 n3 H1 H2 P1 P2. destruct (@giwk_ok mu S w ek n1 n2 n3 H1 H2 P1 P2) as (G & E & Sh & V). exists G. split; [assumption|]. split; [assumption|].
  intros i j l t e s x Ee Es Ex N. eexists. split; [eapply V; eassumption|]. now apply cinv_inverse.
Qed.
Print Assumptions C114_dyson.
(** Arrays whose shapes do not agree raise. *)
Theorem C114_shapes : forall mu S w ek, (exists G, get_giwk mu S w ek = Ok G /\ exists n1 n2 n3, shape3 ek n1 n2 n3 /\ shape4 S n1 n2 n3 (zlen w)) \/ get_giwk mu S w ek = Raise ValueError.
Proof. intros mu S w ek. unfold get_giwk. destruct (shapes_agree S w ek) eqn:E; cbn [negb]; [left|now right]. eexists. split; [reflexivity|]. now apply agree_inv. Qed.
Print Assumptions C114_shapes.
(** The spectral function of a self-energy with damping c is positive and at most 1/(pi c); it is the textbook formula. *)
Theorem C114_spectrum : forall mu e Sg n1 n2 n3 w S ek c G, (0 < n1)%Z -> (0 < n2)%Z -> samples3 e n1 n2 n3 ek -> samples4 Sg n1 n2 n3 w S -> damped c S -> 0 < c ->
  get_giwk mu S w ek = Ok G -> forall i j l t x, (0 <= i < n1)%Z -> (0 <= j < n2)%Z -> (0 <= l < n3)%Z -> zget w t = Some x ->
  exists g, get4 G i j l t = Some g /\ - snd g / PI = lorentz mu (e (mom n1 i) (mom n2 j) (mom n3 l)) (Sg (mom n1 i) (mom n2 j) (mom n3 l) x) x /\ 0 < - snd g / PI <= / (PI * c).
Proof.
  intros mu e Sg n1 n2 n3 w S ek c G H1 H2 He Hs D Hc E i j l t x Hi Hj Hl Hx. destruct (@giwk_samples mu e Sg n1 n2 n3 w S ek H1 H2 He Hs) as (G' & E' & Sh & V). rewrite E in E'. inversion E'; subst G'.
  eexists. split; [apply V; eassumption|]. assert (L : forall g : C, - snd g / PI = - 1 / PI * snd g) by (intros g; unfold Rdiv; ring). rewrite L, gsample_im. split; [reflexivity|].
  apply lorentz_bounds; [assumption|]. apply (D i j l t). now apply Hs.
Qed.
Print Assumptions C114_spectrum.

(** ** The filling *)
(** It is the trapezoid rule over the frequencies that are not positive, of the mean of the spectral function over the mesh. *)
Theorem C114_filling : forall mu e Sg n1 n2 n3 w S ek, (0 < n1)%Z -> (0 < n2)%Z -> samples3 e n1 n2 n3 ek -> samples4 Sg n1 n2 n3 w S ->
  exists G, get_giwk mu S w ek = Ok G /\ get_filling w G = occupation n1 n2 n3 w mu e Sg.
Proof. intros mu e Sg n1 n2 n3 w S ek H1 H2 He Hs. destruct (@giwk_samples mu e Sg n1 n2 n3 w S ek H1 H2 He Hs) as (G & E & SG). exists G. split; [assumption|]. now apply filling_occupation. Qed.
Print Assumptions C114_filling.
(** On an increasing mesh that starts at a it lies between 0 and -a/(pi c). *)
Theorem C114_filling_bounds : forall mu e Sg n1 n2 n3 w S ek c a G, (0 < n1)%Z -> (0 < n2)%Z -> (0 < n3)%Z -> samples3 e n1 n2 n3 ek -> samples4 Sg n1 n2 n3 w S -> damped c S -> 0 < c ->
  StronglySorted Rlt w -> (forall x, In x w -> a <= x) -> a <= 0 -> get_giwk mu S w ek = Ok G -> 0 <= get_filling w G <= - a / (PI * c).
Proof.
  intros mu e Sg n1 n2 n3 w S ek c a G H1 H2 H3 He Hs D Hc Hw Ha H0 E. destruct (@giwk_samples mu e Sg n1 n2 n3 w S ek H1 H2 He Hs) as (G' & E' & SG). rewrite E in E'. inversion E'; subst G'.
  rewrite (filling_occupation SG). eapply occupation_bounds; eassumption.
Qed.
Print Assumptions C114_filling_bounds.
(** Two self-energies that agree at the frequencies that are not positive give the same filling. *)
Theorem C114_filling_local : forall mu e Sg Sg' n1 n2 n3 w S S' ek G G', (0 < n1)%Z -> (0 < n2)%Z -> samples3 e n1 n2 n3 ek -> samples4 Sg n1 n2 n3 w S -> samples4 Sg' n1 n2 n3 w S' ->
  (forall kx ky kz x, x <= 0 -> Sg kx ky kz x = Sg' kx ky kz x) -> get_giwk mu S w ek = Ok G -> get_giwk mu S' w ek = Ok G' -> get_filling w G = get_filling w G'.
Proof.
  intros mu e Sg Sg' n1 n2 n3 w S S' ek G G' H1 H2 He Hs Hs' Q E E'. destruct (@giwk_samples mu e Sg n1 n2 n3 w S ek H1 H2 He Hs) as (G1 & E1 & SG). destruct (@giwk_samples mu e Sg' n1 n2 n3 w S' ek H1 H2 He Hs') as (G2 & E2 & SG').
  rewrite E in E1. rewrite E' in E2. inversion E1. inversion E2. subst. rewrite (filling_occupation SG), (filling_occupation SG'). now apply occupation_ext.
Qed.
Print Assumptions C114_filling_local.
(** A shift of the band and of the chemical potential by the same energy does not change it. *)
Theorem C114_shift : forall mu d e Sg n1 n2 n3 w S ek ek' G G', (0 < n1)%Z -> (0 < n2)%Z -> samples3 e n1 n2 n3 ek -> samples3 (fun kx ky kz => e kx ky kz + d) n1 n2 n3 ek' -> samples4 Sg n1 n2 n3 w S ->
  get_giwk mu S w ek = Ok G -> get_giwk (mu + d) S w ek' = Ok G' -> get_filling w G' = get_filling w G.
Proof.
  intros mu d e Sg n1 n2 n3 w S ek ek' G G' H1 H2 He He' Hs E E'. destruct (@giwk_samples mu e Sg n1 n2 n3 w S ek H1 H2 He Hs) as (G1 & E1 & SG). destruct (@giwk_samples (mu + d) _ Sg n1 n2 n3 w S ek' H1 H2 He' Hs) as (G2 & E2 & SG').
  rewrite E in E1. rewrite E' in E2. inversion E1. inversion E2. subst. rewrite (filling_occupation SG), (filling_occupation SG'). apply occupation_shift.
Qed.
Print Assumptions C114_shift.

(** ** The chemical potential *)
(** The objective is the square of the distance of twice the filling from n; it is never negative and vanishes exactly where they agree. *)
Theorem C114_objective : forall mu n e Sg n1 n2 n3 w S ek, (0 < n1)%Z -> (0 < n2)%Z -> samples3 e n1 n2 n3 ek -> samples4 Sg n1 n2 n3 w S ->
  exists v, opt_func mu n S w ek = Ok v /\ v = (2 * occupation n1 n2 n3 w mu e Sg - n) ^ 2 /\ 0 <= v /\ (v = 0 <-> 2 * occupation n1 n2 n3 w mu e Sg = n).
Proof.
  intros mu n e Sg n1 n2 n3 w S ek H1 H2 He Hs. eexists. split; [apply (objective mu n H1 H2 He Hs)|]. split; [reflexivity|]. set (y := 2 * occupation _ _ _ _ _ _ _ - n).
  assert (E : y = 2 * occupation n1 n2 n3 w mu e Sg - n) by reflexivity. clearbody y. split; [pose proof (Rle_0_sqr y); unfold Rsqr in *; nra|]. split; intros Q; [|nra]. assert (y = 0) by nra. lra.
Qed.
Print Assumptions C114_objective.
(** The result is what the minimizer returns, started at mu0, for this objective; if it is a minimum and some mu reaches the target, it has the right filling. *)
Theorem C114_mu : forall minimize mu0 n e Sg n1 n2 n3 w S ek, (0 < n1)%Z -> (0 < n2)%Z -> samples3 e n1 n2 n3 ek -> samples4 Sg n1 n2 n3 w S ->
  exists f, adjust_mu minimize mu0 n S w ek = Ok (minimize f mu0) /\ (forall mu, f mu = (2 * occupation n1 n2 n3 w mu e Sg - n) ^ 2) /\
    (is_minimum f (minimize f mu0) -> (exists mu, 2 * occupation n1 n2 n3 w mu e Sg = n) -> 2 * occupation n1 n2 n3 w (minimize f mu0) e Sg = n).
Proof.
  intros minimize mu0 n e Sg n1 n2 n3 w S ek H1 H2 He Hs. destruct (@adjust_ok minimize mu0 n e Sg n1 n2 n3 w S ek H1 H2 He Hs) as (f & E & F). exists f. split; [assumption|]. split; [assumption|].
  intros M T. apply (@target n (fun mu => occupation n1 n2 n3 w mu e Sg)); [|assumption]. intros y. rewrite <- !F. apply M.
Qed.
Print Assumptions C114_mu.
(** What is saved: the Green function of the cut self-energy at the first of the two chemical potentials, and both; the search starts at the first number of mu.txt. *)
Theorem C114_saved : forall minimize e Sg n1 n2 n3 w swk ek mu0 rest n, (0 < n1)%Z -> (0 < n2)%Z -> samples3 e n1 n2 n3 ek -> samples4 Sg n1 n2 n3 w swk ->
  let Sc := fun kx ky kz x => cut_off 0.04 (Sg kx ky kz x) in
  exists f f0 G, main_saved minimize swk w (mu0 :: rest) n ek = Ok (Saved G [minimize f mu0; minimize f0 mu0]) /\
    samples4 (fun kx ky kz x => (re_green (minimize f mu0) (e kx ky kz) (Sc kx ky kz x) x, - (PI * lorentz (minimize f mu0) (e kx ky kz) (Sc kx ky kz x) x))) n1 n2 n3 w G /\
    (forall mu, f mu = (2 * occupation n1 n2 n3 w mu e Sc - n) ^ 2) /\ (forall mu, f0 mu = (2 * occupation n1 n2 n3 w mu e (fun _ _ _ _ => (0, 0)) - n) ^ 2).
Proof.
  intros minimize e Sg n1 n2 n3 w swk ek mu0 rest n H1 H2 He Hs Sc. destruct (@saved_spec minimize e Sg n1 n2 n3 w swk ek mu0 rest n H1 H2 He Hs) as (f & f0 & G & E & SG & F). exists f, f0, G. split; [assumption|]. split; [|exact F].
  eapply samples4_ext; [|exact SG]. intros a b c x. rewrite <- gsample_re, <- gsample_im. destruct (gsample _ e _ a b c x) as [u v]. cbn. f_equal. field. pose proof PI_RGT_0. lra.
Qed.
Print Assumptions C114_saved.
(** Without self-energy the spectral function is zero, so the second filling is 0 for every mu, and the objective is n^2 for every mu. *)
Theorem C114_lda_filling_finding : forall mu n e n1 n2 n3 w ek, (0 < n1)%Z -> (0 < n2)%Z -> (0 < n3)%Z -> samples3 e n1 n2 n3 ek ->
  forall S, samples4 (fun _ _ _ _ => (0, 0)) n1 n2 n3 w S -> opt_func mu n S w ek = Ok (n ^ 2) /\ exists G, get_giwk mu S w ek = Ok G /\ get_filling w G = 0.
Proof.
  intros mu n e n1 n2 n3 w ek H1 H2 H3 He S Hs. destruct (C114_filling mu H1 H2 He Hs) as (G & E & F). rewrite (no_selfenergy w mu e H1 H2 H3) in F. split; [|exists G; now split].
  unfold opt_func. rewrite E. cbn [bind]. rewrite F. f_equal. ring.
Qed.
Print Assumptions C114_lda_filling_finding.
(** So with a minimizer that stays where it starts when a step eps does not change the objective, mu_lda is the start value: it does not depend on the target n
    or on the band.  The hypothesis about w + mu0 - e(k) is where numpy divides by zero; it is not needed for the real numbers of the model. *)
Theorem C114_lda_refuted : forall minimize eps e Sg n1 n2 n3 w swk ek mu0 rest n, (0 < n1)%Z -> (0 < n2)%Z -> (0 < n3)%Z -> samples3 e n1 n2 n3 ek -> samples4 Sg n1 n2 n3 w swk ->
  stays_if_flat eps minimize -> (forall x i j l v, In x w -> get3 ek i j l = Some v -> x + mu0 - v <> 0 /\ x + (mu0 + eps) - v <> 0) ->
  exists G mu, main_saved minimize swk w (mu0 :: rest) n ek = Ok (Saved G [mu; mu0]).
Proof. intros minimize eps e Sg n1 n2 n3 w swk ek mu0 rest n H1 H2 H3 He Hs Hst Hz. exact (saved_lda mu0 rest n H1 H2 H3 He Hs Hst). Qed.
Print Assumptions C114_lda_refuted.

(** ** The panel *)
(** Entry i of the shifted data belongs to the momentum -pi + 2 pi i/n (even n) or pi/n more (odd n); the axis puts it at -pi + 2 pi i/(n-1).  They agree for a
    single entry: the first one if n is even, the central one if n is odd. *)
Theorem C114_axis_refuted : forall n i, (2 <= n)%Z -> (0 <= i < n)%Z -> (shown_at n i = shifted_mom n i <-> (if Z.even n then i = 0 else 2 * i = n - 1)%Z).
Proof. exact axis_wrong. Qed.
Print Assumptions C114_axis_refuted.
(** With an even number of momenta the Gamma point is shown at pi/(n-1). *)
Theorem C114_gamma_finding : forall h, (1 <= h)%Z -> shifted_mom (2 * h) h = 0 /\ shown_at (2 * h) h = PI / IZR (2 * h - 1).
Proof.
  intros h H. assert (N : 0 < IZR h) by (apply IZR_lt; lia). assert (N1 : 0 < IZR (2 * h - 1)) by (apply IZR_lt; lia). unfold shifted_mom, shown_at, mom.
  rewrite Z.even_mul. cbn [Z.even orb]. split.
  - rewrite mult_IZR. field. lra.
  - assert (E : IZR (2 * h - 1) = 2 * IZR h - 1) by (now rewrite minus_IZR, mult_IZR). replace (2 * PI * IZR h / IZR (2 * h - 1)) with (PI * (IZR (2 * h - 1) + 1) / IZR (2 * h - 1)) by (rewrite E; field; lra). field. lra.
Qed.
Print Assumptions C114_gamma_finding.
(** The plane that is shown is the first kz of the shifted data: with two or more momenta along z it is not the plane kz = 0 (for an even number it is kz = -pi). *)
Theorem C114_plane_refuted : forall n3, (1 <= n3)%Z -> (shifted_mom n3 0 = 0 <-> n3 = 1%Z) /\ (Z.even n3 = true -> shifted_mom n3 0 = - PI).
Proof.
  intros n3 H. pose proof PI_RGT_0 as Hp. assert (N : 0 < IZR n3) by (apply IZR_lt; lia). unfold shifted_mom, mom. rewrite Rmult_0_r. unfold Rdiv at 1. rewrite Rmult_0_l. split.
  - destruct (Z.even n3) eqn:Ev; split; intros E; try lra.
    + subst. discriminate.
    + assert (Q : PI / IZR n3 = PI) by lra. assert (Q2 : PI = PI * IZR n3) by (rewrite <- Q at 2; field; lra). apply eq_IZR. apply Rmult_eq_reg_l with PI; lra.
    + subst. field.
  - intros ->. unfold Rdiv. rewrite Rmult_0_l. lra.
Qed.
Print Assumptions C114_plane_refuted.
(** What the panel shows, for a self-energy and a band with the period of the zone, at the frequency w0 nearest to zero: the cells of the map, and the points of the
    Fermi line, which lie on lattice points where Re G changes sign.  The map shows A(kx_i, ky_j) at (axis j, axis i), the line a point (kx_i, ky_j) at (axis i, axis j). *)
Theorem C114_panel : forall minimize contour, draws_zero_lines contour -> forall e Sg n n3 w swk ek mu0 rest nt s p, (2 <= n)%Z -> (0 < n3)%Z -> (0 < zlen w)%Z ->
  periodic3 e -> periodic4 Sg -> samples3 e n n n3 ek -> samples4 Sg n n n3 w swk -> main minimize contour swk w (mu0 :: rest) nt ek n = Ok (s, Ok p) ->
  let Sc := fun kx ky kz x => cut_off 0.04 (Sg kx ky kz x) in
  exists mu mu_lda w0, mu_dga s = [mu; mu_lda] /\ In w0 w /\ (forall x, In x w -> Rabs w0 <= Rabs x) /\
  (forall a b v, In (a, b, v) (shown_map p) <-> exists i j, (0 <= i < n)%Z /\ (0 <= j < n)%Z /\ a = shown_at n j /\ b = shown_at n i /\
     let kx := shifted_mom n i in let ky := shifted_mom n j in let kz := shifted_mom n3 0 in v = lorentz mu (e kx ky kz) (Sc kx ky kz w0) w0) /\
  (forall a b, In (a, b) (fermi_points p) -> exists i j, a = shown_at n i /\ b = shown_at n j /\
     sign_change_up (plane (fun kx ky kz => re_green mu (e kx ky kz) (Sc kx ky kz w0) w0) n n n3) i j).
Proof. exact run_content. Qed.
Print Assumptions C114_panel.
(** So map and line have their momenta exchanged: at the place (axis i, axis j), where the line shows the momentum (i, j), the map shows the value of (j, i) and no other. *)
Theorem C114_transposed_refuted : forall minimize contour, draws_zero_lines contour -> forall e Sg n n3 w swk ek mu0 rest nt s p, (2 <= n)%Z -> (0 < n3)%Z -> (0 < zlen w)%Z ->
  periodic3 e -> periodic4 Sg -> samples3 e n n n3 ek -> samples4 Sg n n n3 w swk -> main minimize contour swk w (mu0 :: rest) nt ek n = Ok (s, Ok p) ->
  exists mu mu_lda w0, mu_dga s = [mu; mu_lda] /\ In w0 w /\ forall i j v, (0 <= i < n)%Z -> (0 <= j < n)%Z ->
    (In (shown_at n i, shown_at n j, v) (shown_map p) <->
     let kx := shifted_mom n j in let ky := shifted_mom n i in let kz := shifted_mom n3 0 in v = lorentz mu (e kx ky kz) (cut_off 0.04 (Sg kx ky kz w0)) w0).
Proof.
  intros minimize contour HC e Sg n n3 w swk ek mu0 rest nt s p Hn H3 Hw Pe Ps He Hs E. destruct (C114_panel minimize HC mu0 rest nt Hn H3 Hw Pe Ps He Hs E) as (mu & mu_lda & w0 & Em & Iw & _ & Im & _).
  exists mu, mu_lda, w0. split; [assumption|]. split; [assumption|]. intros i j v Hi Hj. assert (Inj : forall a b, shown_at n a = shown_at n b -> a = b).
  { intros a b Q. unfold shown_at in Q. pose proof PI_RGT_0. assert (N1 : 0 < IZR (n - 1)) by (apply IZR_lt; lia). apply Rplus_eq_reg_l in Q. unfold Rdiv in Q. apply Rmult_eq_reg_r in Q; [|apply Rinv_neq_0_compat; lra]. apply Rmult_eq_reg_l in Q; [|lra]. now apply eq_IZR. }
  rewrite Im. cbv zeta. split.
  - intros (i' & j' & _ & _ & Ea & Eb & ->). apply Inj in Ea. apply Inj in Eb. subst. reflexivity.
  - intros ->. exists j, i. tauto.
Qed.
Print Assumptions C114_transposed_refuted.
(** If two neighbouring lattice points have opposite signs of w0 + mu - e - Re Sigma, the panel is drawn. *)
Theorem C114_panel_works : forall minimize contour, draws_zero_lines contour -> forall e Sg n n3 w swk ek mu0 rest nt, (2 <= n)%Z -> (0 < n3)%Z -> (0 < zlen w)%Z ->
  periodic3 e -> periodic4 Sg -> samples3 e n n n3 ek -> samples4 Sg n n n3 w swk -> forall s, main_saved minimize swk w (mu0 :: rest) nt ek = Ok s ->
  (forall mu mu_lda x, mu_dga s = [mu; mu_lda] -> In x w -> (forall y, In y w -> Rabs x <= Rabs y) -> exists i j a b,
     let v := plane (fun kx ky kz => x + mu - e kx ky kz - fst (Sg kx ky kz x)) n n n3 in v i j = Some a /\ (v (i + 1)%Z j = Some b \/ v i (j + 1)%Z = Some b) /\ a * b < 0) ->
  exists p, main minimize contour swk w (mu0 :: rest) nt ek n = Ok (s, Ok p).
Proof. exact run_works. Qed.
Print Assumptions C114_panel_works.
(** Without a Fermi line (w0 + mu - e - Re Sigma positive everywhere) the figure raises after the files have been saved. *)
Theorem C114_no_line_finding : forall minimize contour, draws_zero_lines contour -> forall e Sg n1 n2 n3 w swk ek mu0 rest nt, (2 <= n1)%Z -> (2 <= n2)%Z -> (0 < n3)%Z -> (0 < zlen w)%Z ->
  periodic3 e -> periodic4 Sg -> samples3 e n1 n2 n3 ek -> samples4 Sg n1 n2 n3 w swk -> forall s, main_saved minimize swk w (mu0 :: rest) nt ek = Ok s ->
  (forall mu mu_lda kx ky kz x, mu_dga s = [mu; mu_lda] -> In x w -> (forall y, In y w -> Rabs x <= Rabs y) -> 0 < x + mu - e kx ky kz - fst (Sg kx ky kz x)) ->
  main minimize contour swk w (mu0 :: rest) nt ek n1 = Ok (s, Raise IndexError).
Proof. exact run_no_crossing. Qed.
Print Assumptions C114_no_line_finding.
(** A mesh with different numbers of momenta along x and y always raises, after the files have been saved. *)
Theorem C114_rectangular_refuted : forall minimize contour, draws_zero_lines contour -> forall e Sg n1 n2 n3 w swk ek mu0 rest nt, (2 <= n1)%Z -> (2 <= n2)%Z -> n1 <> n2 -> (0 < n3)%Z -> (0 < zlen w)%Z ->
  periodic3 e -> periodic4 Sg -> samples3 e n1 n2 n3 ek -> samples4 Sg n1 n2 n3 w swk -> exists s ex, main minimize contour swk w (mu0 :: rest) nt ek n1 = Ok (s, Raise ex).
Proof. exact run_rectangular. Qed.
Print Assumptions C114_rectangular_refuted.
(** The layer for the quasi-particle energies is 1 exactly where e(k) + Re Sigma(k,w) - mu <= w, else 0. *)
Theorem C114_quasi : forall minimize contour, draws_zero_lines contour -> forall e Sg n n3 w swk ek mu0 rest nt s p, (2 <= n)%Z -> (0 < n3)%Z -> (0 < zlen w)%Z ->
  periodic3 e -> periodic4 Sg -> samples3 e n n n3 ek -> samples4 Sg n n n3 w swk -> main minimize contour swk w (mu0 :: rest) nt ek n = Ok (s, Ok p) ->
  exists mu mu_lda, mu_dga s = [mu; mu_lda] /\ forall i j l t x, (0 <= i < n)%Z -> (0 <= j < n)%Z -> (0 <= l < n3)%Z -> zget w t = Some x ->
    let kx := shifted_mom n i in let ky := shifted_mom n j in let kz := shifted_mom n3 l in
    exists q, get4 (quasi p) i j l t = Some q /\ (q = 1 \/ q = 0) /\ (q = 1 <-> e kx ky kz + fst (Sg kx ky kz x) - mu <= x).
Proof. exact run_quasi. Qed.
Print Assumptions C114_quasi.
(** The cuts: along every path the spectra and the white line belong to the same momentum, at the first kz of the shifted data whatever kz the path has; the line is
    the band relative to the second chemical potential. *)
Theorem C114_cuts : forall (e : R -> R -> R -> R) (g : R -> R -> R -> R -> C) n1 n2 n3 w ek G mu_lda kpts, periodic3 e -> periodic4 g -> samples3 e n1 n2 n3 ek -> samples4 g n1 n2 n3 w G -> (0 < n3)%Z ->
  (forall p, In p kpts -> (0 <= fst (fst p) < n1)%Z /\ (0 <= snd (fst p) < n2)%Z) ->
  path_cut G ek mu_lda kpts = Ok (map (fun p => let kx := shifted_mom n1 (fst (fst p)) in let ky := shifted_mom n2 (snd (fst p)) in let kz := shifted_mom n3 0 in
    (map (fun x => - 1 / PI * snd (g kx ky kz x)) w, e kx ky kz - mu_lda)) kpts).
Proof. exact cut_ok. Qed.
Print Assumptions C114_cuts.

(** ** Concrete cases *)
(** Every function has an array of its values, so the hypotheses [samples3] and [samples4] can be met for any band and self-energy. *)
Example C114_ex_samples : forall (e : R -> R -> R -> R) (Sg : R -> R -> R -> R -> C) n1 n2 n3 w, (0 < n1)%Z -> (0 < n2)%Z -> (0 < n3)%Z ->
  exists ek S, samples3 e n1 n2 n3 ek /\ samples4 Sg n1 n2 n3 w S.
Proof. intros. exists (values3 e n1 n2 n3), (values4 Sg n1 n2 n3 w). split; [apply values3_ok; lia|apply values4_ok; lia]. Qed.
Definition ex_e (kx ky kz : R) : R := cos kx + cos ky / 2.
Definition ex_S (kx ky kz x : R) : C := (0, -1).
Lemma ex_e_per : periodic3 ex_e.
Proof. intros x y z. unfold ex_e. pose proof (cos_period x 1) as Hx. pose proof (cos_period y 1) as Hy. cbn [INR] in *. replace (x + 2 * PI) with (x + 2 * 1 * PI) by ring. replace (y + 2 * PI) with (y + 2 * 1 * PI) by ring. rewrite Hx, Hy. auto. Qed.
Lemma ex_S_per : periodic4 ex_S. Proof. intros x a b c. auto. Qed.
(** The self-energy of the example is causal, damped, and not changed by the cut-off. *)
Example C114_ex_damped : damped 0.04 (values4 ex_S 2 2 1 [-1; 0; 1]) /\ causal (values4 ex_S 2 2 1 [-1; 0; 1]).
Proof.
  assert (H : forall i j l t s, get4 (values4 ex_S 2 2 1 [-1; 0; 1]) i j l t = Some s -> s = (0, -1)).
  { intros i j l t s E. destruct (@values4_ok _ ex_S 2 2 1 [-1; 0; 1]) as [Sh V]; [lia|lia|lia|]. pose proof (get4_inv _ _ _ _ Sh E) as (Hi & Hj & Hl & Ht).
    destruct (@zget_in_range _ [-1; 0; 1] t Ht) as [x Ex]. rewrite (V i j l t x) in E by assumption. now inversion E. }
  split; intros i j l t s E; rewrite (H _ _ _ _ _ E); cbn; lra.
Qed.
(** With a minimizer that returns its start the panel is drawn on a 2 x 2 mesh. *)
Example C114_ex_panel : forall contour, draws_zero_lines contour ->
  exists s p, main (fun _ x => x) contour (values4 ex_S 2 2 1 [-1; 0; 1]) [-1; 0; 1] [0; 5] 1 (values3 ex_e 2 2 1) 2 = Ok (s, Ok p) /\ mu_dga s = [0; 0].
Proof.
  intros contour HC. assert (He : samples3 ex_e 2 2 1 (values3 ex_e 2 2 1)) by (apply values3_ok; lia). assert (Hs : samples4 ex_S 2 2 1 [-1; 0; 1] (values4 ex_S 2 2 1 [-1; 0; 1])) by (apply values4_ok; lia).
  destruct (@C114_saved (fun _ x => x) ex_e ex_S 2 2 1 [-1; 0; 1] _ _ 0 [5] 1 ltac:(lia) ltac:(lia) He Hs) as (f & f0 & G & E & _).
  destruct (@C114_panel_works (fun _ x => x) contour HC ex_e ex_S 2 1 [-1; 0; 1] _ _ 0 [5] 1 ltac:(lia) ltac:(lia) ltac:(reflexivity) ex_e_per ex_S_per He Hs _ E) as [p Ep].
  - intros mu mu_lda x Em Ix Mx. cbn in Em. inversion Em; subst mu mu_lda.
    assert (X : x = 0). { specialize (Mx 0 ltac:(cbn; auto)). rewrite Rabs_R0 in Mx. destruct (Req_dec x 0) as [|N]; [assumption|]. apply Rabs_pos_lt in N. lra. } subst x.
    exists 0%Z, 0%Z, (3 / 2), (- 1 / 2). cbv zeta. rewrite !plane_in by lia. assert (A : shifted_mom 2 0 = - PI) by (unfold shifted_mom, mom; cbn; field). assert (B : shifted_mom 2 (0 + 1) = 0) by (unfold shifted_mom, mom; cbn; field).
    rewrite A, B. unfold ex_e, ex_S. cbn [fst]. rewrite cos_neg, cos_PI, cos_0. split; [f_equal; field|]. split; [left; f_equal; field|]. lra.
  - eexists. exists p. split; [exact Ep|]. reflexivity.
Qed.
Example C114_ex_flat : stays_if_flat (/ 2) (fun _ x => x).
Proof. intros f x _. reflexivity. Qed.
