(** Proofs about Model/SwkAnalysis.v: bounds on the spectrum and the filling, the chemical potentials, what is saved. *)
From Coq Require Import ZArith Reals List Lia Lra Sorted.
From Verif Require Import Base.PyBase Base.Arr Base.PyFacts Base.RSum Model.BrillouinZone Model.KPath Model.MaxEnt Model.RealMesh Model.ShownK Model.SwkAnalysis.
From Verif Require Import Spec.ShownKSpec Spec.SwkSpec Proofs.ShownKP Proofs.SwkP.
Import ListNotations.
Set Implicit Arguments.
Local Open Scope R_scope.

Definition gsample mu (e : R -> R -> R -> R) (Sg : R -> R -> R -> R -> C) (kx ky kz x : R) : C := cinv (denom mu (e kx ky kz) (Sg kx ky kz x) x).
Lemma giwk_samples mu (e : R -> R -> R -> R) Sg n1 n2 n3 w S ek : (0 < n1)%Z -> (0 < n2)%Z -> samples3 e n1 n2 n3 ek -> samples4 Sg n1 n2 n3 w S ->
  exists G, get_giwk mu S w ek = Ok G /\ samples4 (gsample mu e Sg) n1 n2 n3 w G.
Proof.
  intros H1 H2 [Se Ve] [Ss Vs]. destruct (@giwk_ok mu S w ek n1 n2 n3 Se Ss H1 H2) as (G & E & Sh & V). exists G. split; [assumption|]. split; [assumption|].
  intros i j l t x Hi Hj Hl Hx. apply V; [now apply Ve|now apply Vs|assumption].
Qed.
Lemma giwk_raises mu S w ek : (exists G, get_giwk mu S w ek = Ok G) \/ get_giwk mu S w ek = Raise ValueError.
Proof. unfold get_giwk. destruct (negb _); eauto. Qed.
Lemma bz_mean_ext n1 n2 n3 f g : (forall i j l, (0 <= i < n1)%Z -> (0 <= j < n2)%Z -> (0 <= l < n3)%Z -> f (mom n1 i) (mom n2 j) (mom n3 l) = g (mom n1 i) (mom n2 j) (mom n3 l)) ->
  bz_mean n1 n2 n3 f = bz_mean n1 n2 n3 g.
Proof.
  intros H. unfold bz_mean, zsumf. f_equal. apply rsum_ext. intros i Hi. apply rsum_ext. intros j Hj. apply rsum_ext. intros l Hl. apply H; lia.
Qed.
Lemma filling_occupation mu e Sg n1 n2 n3 w G : samples4 (gsample mu e Sg) n1 n2 n3 w G -> get_filling w G = occupation n1 n2 n3 w mu e Sg.
Proof.
  intros H. rewrite (filling_samples H). unfold occupation. apply trapezoid_ext. intros x _. apply bz_mean_ext. intros. apply cinv_lorentz.
Qed.
Lemma rsum_bounds n f a b : (forall i, (i < n)%nat -> a <= f i <= b) -> INR n * a <= rsum n f <= INR n * b.
Proof.
  induction n as [|n IH]; intros H; [cbn; lra|]. rewrite S_INR. cbn [rsum]. specialize (IH (fun i Hi => H i (Nat.lt_lt_succ_r _ _ Hi))). specialize (H n (Nat.lt_succ_diag_r n)). lra.
Qed.
Lemma zsumf_bounds n f a b : (0 <= n)%Z -> (forall i, (0 <= i < n)%Z -> a <= f i <= b) -> IZR n * a <= zsumf n f <= IZR n * b.
Proof.
  intros Hn H. unfold zsumf. assert (E : IZR n = INR (Z.to_nat n)) by (rewrite INR_IZR_INZ, Z2Nat.id by assumption; reflexivity). rewrite E. apply rsum_bounds. intros i Hi. apply H. lia.
Qed.
Lemma bz_mean_bounds n1 n2 n3 f a b : (0 < n1)%Z -> (0 < n2)%Z -> (0 < n3)%Z ->
  (forall i j l, (0 <= i < n1)%Z -> (0 <= j < n2)%Z -> (0 <= l < n3)%Z -> a <= f (mom n1 i) (mom n2 j) (mom n3 l) <= b) -> a <= bz_mean n1 n2 n3 f <= b.
Proof.
  intros H1 H2 H3 H. assert (P : 0 < IZR (n1 * n2 * n3)) by (apply IZR_lt; nia).
  assert (B : IZR n1 * (IZR n2 * (IZR n3 * a)) <= zsumf n1 (fun i => zsumf n2 (fun j => zsumf n3 (fun l => f (mom n1 i) (mom n2 j) (mom n3 l)))) <= IZR n1 * (IZR n2 * (IZR n3 * b))).
  { apply zsumf_bounds; [lia|]. intros i Hi. apply zsumf_bounds; [lia|]. intros j Hj. apply zsumf_bounds; [lia|]. intros l Hl. auto. }
  unfold bz_mean. set (Z0 := zsumf n1 _) in *. assert (E : IZR (n1 * n2 * n3) = IZR n1 * IZR n2 * IZR n3) by now rewrite !mult_IZR. set (N := IZR (n1 * n2 * n3)) in *.
  assert (Q : Z0 / N * N = Z0) by (unfold Rdiv; rewrite Rmult_assoc, Rinv_l by lra; ring).
  split; apply Rmult_le_reg_r with N; try assumption; rewrite Q, E; lra.
Qed.
Lemma lorentz_bounds mu e s x c : 0 < c -> snd s <= - c -> 0 < lorentz mu e s x <= / (PI * c).
Proof.
  intros Hc H. pose proof PI_RGT_0 as Hp. unfold lorentz. set (d := x + mu - e - fst s). set (q := - snd s). assert (Hq : c <= q) by (unfold q; lra).
  replace (d ^ 2 + snd s ^ 2) with (d * d + q * q) by (unfold q; ring). assert (D : 0 < d * d + q * q) by (pose proof (Rle_0_sqr d); unfold Rsqr in *; nra).
  assert (Ip : 0 < / PI) by now apply Rinv_0_lt_compat. split.
  - apply Rmult_lt_0_compat; [assumption|]. apply Rdiv_lt_0_compat; lra.
  - rewrite Rinv_mult_distr by lra. apply Rmult_le_compat_l; [lra|]. apply Rmult_le_reg_r with (d * d + q * q); [assumption|]. unfold Rdiv. rewrite Rmult_assoc, Rinv_l by lra.
    apply Rmult_le_reg_l with c; [assumption|]. replace (c * (/ c * (d * d + q * q))) with (d * d + q * q) by (field; lra). pose proof (Rle_0_sqr d). unfold Rsqr in *. nra.
Qed.
Lemma trapezoid_nonneg h x : StronglySorted Rlt x -> (forall y, In y x -> 0 <= h y) -> 0 <= trapezoid h x.
Proof.
  induction x as [|x0 [|x1 x] IH]; intros Hs H; [cbn; lra|cbn; lra|].
  change (0 <= (x1 - x0) * ((h x0 + h x1) / 2) + trapezoid h (x1 :: x)). inversion Hs as [|? ? Hs' F]; subst. inversion F; subst.
  assert (0 <= trapezoid h (x1 :: x)) by (apply IH; [assumption|intros; apply H; now right]).
  assert (0 <= h x0) by (apply H; now left). assert (0 <= h x1) by (apply H; right; now left). assert (0 <= (x1 - x0) * ((h x0 + h x1) / 2)) by (apply Rmult_le_pos; lra). lra.
Qed.
Lemma trapezoid_le h M b x0 x : 0 <= M -> StronglySorted Rlt (x0 :: x) -> (forall y, In y (x0 :: x) -> h y <= M /\ y <= b) -> trapezoid h (x0 :: x) <= M * (b - x0).
Proof.
  intros HM. revert x0. induction x as [|x1 x IH]; intros x0 Hs H.
  - cbn. apply Rmult_le_pos; [assumption|]. destruct (H x0 (or_introl eq_refl)). lra.
  - change ((x1 - x0) * ((h x0 + h x1) / 2) + trapezoid h (x1 :: x) <= M * (b - x0)). inversion Hs as [|? ? Hs' F]; subst. inversion F; subst.
    assert (trapezoid h (x1 :: x) <= M * (b - x1)) by (apply IH; [assumption|intros; apply H; now right]).
    assert (h x0 <= M) by (apply H; now left). assert (h x1 <= M) by (apply H; right; now left).
    assert ((x1 - x0) * ((h x0 + h x1) / 2) <= (x1 - x0) * M) by (apply Rmult_le_compat_l; lra). lra.
Qed.
Lemma not_positive_in w x : In x (not_positive w) <-> In x w /\ x <= 0.
Proof. unfold not_positive. rewrite filter_In. destruct (Rle_dec x 0); split; intros [H1 H2]; split; try assumption; try reflexivity; try discriminate. contradiction. Qed.
Lemma filter_sorted (p : R -> bool) l : StronglySorted Rlt l -> StronglySorted Rlt (filter p l).
Proof.
  induction 1 as [|x l H IH F]; [constructor|]. cbn. destruct (p x); [|assumption]. constructor; [assumption|]. rewrite Forall_forall in *. intros y I. apply filter_In in I. apply F. tauto.
Qed.
Lemma occupation_bounds n1 n2 n3 w mu e Sg c a S : (0 < n1)%Z -> (0 < n2)%Z -> (0 < n3)%Z -> samples4 Sg n1 n2 n3 w S -> damped c S -> 0 < c ->
  StronglySorted Rlt w -> (forall x, In x w -> a <= x) -> a <= 0 -> 0 <= occupation n1 n2 n3 w mu e Sg <= - a / (PI * c).
Proof.
  intros H1 H2 H3 [Sh V] D Hc Hs Ha H0. pose proof PI_RGT_0 as Hp. assert (Pc : 0 < / (PI * c)) by (apply Rinv_0_lt_compat; now apply Rmult_lt_0_compat). unfold occupation. set (h := fun x => bz_mean n1 n2 n3 _).
  assert (B : forall x, In x w -> 0 <= h x <= / (PI * c)).
  { intros x Ix. apply In_zget in Ix. destruct Ix as (t & Ht & Ex). unfold h. apply bz_mean_bounds; try assumption. intros i j l Hi Hj Hl.
    assert (E : snd (Sg (mom n1 i) (mom n2 j) (mom n3 l) x) <= - c) by (apply (D i j l t); now apply V).
    destruct (@lorentz_bounds mu (e (mom n1 i) (mom n2 j) (mom n3 l)) (Sg (mom n1 i) (mom n2 j) (mom n3 l) x) x c Hc E). lra. }
  assert (Sn : StronglySorted Rlt (not_positive w)) by now apply filter_sorted. split.
  - apply trapezoid_nonneg; [assumption|]. intros y Iy. apply not_positive_in in Iy. apply B. tauto.
  - assert (N : forall y, In y (not_positive w) -> a <= y /\ h y <= / (PI * c) /\ y <= 0).
    { intros y Iy. apply not_positive_in in Iy. destruct Iy as [I1 I2]. destruct (B y I1). auto. }
    clearbody h. destruct (not_positive w) as [|x0 x] eqn:E.
    + cbn. unfold Rdiv. apply Rmult_le_pos; lra.
    + apply Rle_trans with (/ (PI * c) * (0 - x0)).
      * apply trapezoid_le; [lra|assumption|]. intros y Iy. apply N. assumption.
      * unfold Rdiv. rewrite (Rmult_comm (- a)). apply Rmult_le_compat_l; [lra|]. destruct (N x0 (or_introl eq_refl)). lra.
Qed.
Lemma occupation_ext n1 n2 n3 w mu e Sg Sg' : (forall kx ky kz x, x <= 0 -> Sg kx ky kz x = Sg' kx ky kz x) -> occupation n1 n2 n3 w mu e Sg = occupation n1 n2 n3 w mu e Sg'.
Proof.
  intros H. unfold occupation. apply trapezoid_ext. intros x I. apply not_positive_in in I. apply bz_mean_ext. intros. now rewrite H by tauto.
Qed.
Lemma occupation_shift n1 n2 n3 w mu e Sg d : occupation n1 n2 n3 w (mu + d) (fun kx ky kz => e kx ky kz + d) Sg = occupation n1 n2 n3 w mu e Sg.
Proof.
  unfold occupation. apply trapezoid_ext. intros x _. apply bz_mean_ext. intros. unfold lorentz. f_equal. f_equal. f_equal. f_equal. ring.
Qed.

(** The objective and the chemical potential *)
Lemma objective mu n e Sg n1 n2 n3 w S ek : (0 < n1)%Z -> (0 < n2)%Z -> samples3 e n1 n2 n3 ek -> samples4 Sg n1 n2 n3 w S ->
  opt_func mu n S w ek = Ok ((2 * occupation n1 n2 n3 w mu e Sg - n) ^ 2).
Proof.
  intros H1 H2 He Hs. destruct (@giwk_samples mu e Sg n1 n2 n3 w S ek H1 H2 He Hs) as (G & E & SG). unfold opt_func. rewrite E. cbn [bind]. rewrite (filling_occupation SG). do 2 f_equal. ring.
Qed.
Section Run.
Variable minimize : (R -> R) -> R -> R.
Lemma adjust_ok mu0 n e Sg n1 n2 n3 w S ek : (0 < n1)%Z -> (0 < n2)%Z -> samples3 e n1 n2 n3 ek -> samples4 Sg n1 n2 n3 w S ->
  exists f, adjust_mu minimize mu0 n S w ek = Ok (minimize f mu0) /\ forall mu, f mu = (2 * occupation n1 n2 n3 w mu e Sg - n) ^ 2.
Proof.
  intros H1 H2 He Hs. unfold adjust_mu. rewrite (objective mu0 n H1 H2 He Hs). cbn [bind]. eexists. split; [reflexivity|]. intros mu. cbn beta. now rewrite (objective mu n H1 H2 He Hs).
Qed.
Lemma target n (o : R -> R) mu : is_minimum (fun mu => (2 * o mu - n) ^ 2) mu -> (exists mu', 2 * o mu' = n) -> 2 * o mu = n.
Proof.
  intros M [mu' T]. specialize (M mu'). cbn beta in M. rewrite T in M. set (y := 2 * o mu - n) in *. assert (y = 0) by nra. unfold y in *. lra.
Qed.
Lemma adjust_flat eps mu0 n e Sg n1 n2 n3 w S ek : (0 < n1)%Z -> (0 < n2)%Z -> samples3 e n1 n2 n3 ek -> samples4 Sg n1 n2 n3 w S -> stays_if_flat eps minimize ->
  occupation n1 n2 n3 w (mu0 + eps) e Sg = occupation n1 n2 n3 w mu0 e Sg -> adjust_mu minimize mu0 n S w ek = Ok mu0.
Proof.
  intros H1 H2 He Hs Hm T. destruct (@adjust_ok mu0 n e Sg n1 n2 n3 w S ek H1 H2 He Hs) as (f & E & F). rewrite E. f_equal. apply Hm. rewrite !F. now rewrite T.
Qed.
Lemma no_selfenergy n1 n2 n3 w mu e : (0 < n1)%Z -> (0 < n2)%Z -> (0 < n3)%Z -> occupation n1 n2 n3 w mu e (fun _ _ _ _ => (0, 0)) = 0.
Proof.
  intros H1 H2 H3. unfold occupation. transitivity (trapezoid (fun _ => 0) (not_positive w)).
  - apply trapezoid_ext. intros x _. apply Rle_antisym; [apply (@bz_mean_bounds n1 n2 n3 _ 0 0)|apply (@bz_mean_bounds n1 n2 n3 _ 0 0)]; try assumption;
      intros; unfold lorentz; cbn [fst snd]; replace (- 0) with 0 by ring; unfold Rdiv; rewrite Rmult_0_l, Rmult_0_r; lra.
  - induction (not_positive w) as [|x0 [|x1 x] IH]; [reflexivity|reflexivity|]. change ((x1 - x0) * ((0 + 0) / 2) + trapezoid (fun _ => 0) (x1 :: x) = 0). rewrite IH. unfold Rdiv. ring.
Qed.
Lemma saved_ok e Sg n1 n2 n3 w swk ek mu0 rest n : (0 < n1)%Z -> (0 < n2)%Z -> samples3 e n1 n2 n3 ek -> samples4 Sg n1 n2 n3 w swk ->
  let Sc := fun kx ky kz x => cut_entry 0.04 (Sg kx ky kz x) in
  exists f f0 G, main_saved minimize swk w (mu0 :: rest) n ek = Ok (Saved G [minimize f mu0; minimize f0 mu0]) /\
    samples4 (gsample (minimize f mu0) e Sc) n1 n2 n3 w G /\
    (forall mu, f mu = (2 * occupation n1 n2 n3 w mu e Sc - n) ^ 2) /\ (forall mu, f0 mu = (2 * occupation n1 n2 n3 w mu e (fun _ _ _ _ => (0, 0)) - n) ^ 2).
Proof.
  intros H1 H2 He Hs Sc. assert (HS : samples4 Sc n1 n2 n3 w (cut_small 0.04 swk)) by exact (samples4_map (cut_entry 0.04) Hs).
  assert (H0 : samples4 (fun _ _ _ _ => (0, 0)) n1 n2 n3 w (map4 (fun _ : C => (0, 0)) (cut_small 0.04 swk))) by exact (samples4_map (fun _ : C => (0, 0)) HS).
  destruct (@adjust_ok mu0 n e Sc n1 n2 n3 w _ ek H1 H2 He HS) as (f & E & F). destruct (@adjust_ok mu0 n e _ n1 n2 n3 w _ ek H1 H2 He H0) as (f0 & E0 & F0).
  destruct (@giwk_samples (minimize f mu0) e Sc n1 n2 n3 w _ ek H1 H2 He HS) as (G & EG & SG). exists f, f0, G. split; [|tauto].
  unfold main_saved. change (py_get (mu0 :: rest) 0) with (py_get (mu0 :: rest) 0). rewrite (py_get_nonneg (mu0 :: rest) (i := 0) (a := mu0)) by (reflexivity || lia). cbn [bind].
  rewrite E. cbn [bind]. unfold C in *. rewrite E0. cbn [bind]. rewrite EG. reflexivity.
Qed.
End Run.
