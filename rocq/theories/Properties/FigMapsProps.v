(** C115: maps in the figures, their colours, and the dispersion of a continued susceptibility. *)
From Coq Require Import ZArith Reals List Sorted Lia Lra.
From Verif Require Import Base.PyBase Base.Arr Base.PyFacts Model.KPath Model.MaxEnt Model.ShownK Model.SwkAnalysis Model.FigMaps.
From Verif Require Import Spec.ShownKSpec Spec.SwkSpec Spec.FigMapsSpec Proofs.ShownKP Proofs.SwkP Proofs.Swk3P Proofs.Swk4P Proofs.FigMapsP Proofs.FigMaps2P.
Import ListNotations.
Set Implicit Arguments.
Local Open Scope R_scope.

(** ** Colours with a midpoint at zero *)
(** Negative numbers have the colours below 1/2, linear between 0 for the smallest number and 1/2; positive ones those above, linear up to 1 for the largest - also if
    zero does not lie between the smallest and the largest number. *)
Theorem C115_colours : forall a c, colours a = Ok c -> exists lo hi, is_min2 a lo /\ is_max2 a hi /\
  forall i j, match get2 a i j with
  | None => get2 c i j = None
  | Some v => exists x, get2 c i j = Some x /\ 0 <= x <= 1 /\ (v < 0 <-> x < / 2) /\ (v < 0 -> x = (1 - v / lo) / 2) /\ (0 < v -> x = (1 + v / hi) / 2 /\ / 2 < x)
  end.
Proof.
  intros a c E. destruct (@colours_inv a c E) as (lo & hi & Hlo & Hhi & ->). exists lo, hi. split; [assumption|]. split; [assumption|]. intros i j. rewrite get2_map. destruct (get2 a i j) as [v|] eqn:G; [|reflexivity].
  eexists. split; [reflexivity|]. pose proof (proj2 Hlo i j v G) as L1. pose proof (proj2 Hhi i j v G) as L2. destruct (Rlt_dec v 0) as [N|N]; [|destruct (Rlt_dec 0 v) as [P|P]].
  - rewrite interp_neg by lra. assert (0 <= 1 - v / lo < 1). { assert (Q : 0 < v / lo <= 1); [|lra]. replace (v / lo) with (- v / - lo) by (field; lra). split; [apply Rdiv_lt_0_compat; lra|]. apply Rmult_le_reg_r with (- lo); [lra|]. unfold Rdiv. rewrite Rmult_assoc, Rinv_l by lra. lra. }
    repeat split; lra.
  - rewrite interp_pos by lra. assert (0 < v / hi <= 1). { split; [apply Rdiv_lt_0_compat; lra|]. apply Rmult_le_reg_r with hi; [lra|]. unfold Rdiv. rewrite Rmult_assoc, Rinv_l by lra. lra. } repeat split; lra.
  - assert (v = 0) by lra. subst v. rewrite interp_zero by lra. destruct (Rlt_dec 0 hi); repeat split; lra.
Qed.
Print Assumptions C115_colours.
(** The scale itself, also for numbers outside its range: everything up to vmin has the lowest colour, everything from vmax on the highest, the midpoint the middle one, and in between it is linear. *)
Theorem C115_scale : forall vmin mid vmax a i j v, vmin < mid < vmax -> get2 a i j = Some v -> exists x, get2 (midpoint_normalize vmin mid vmax a) i j = Some x /\
  (v <= vmin -> x = 0) /\ (vmax <= v -> x = 1) /\ (vmin <= v <= mid -> x = (v - vmin) / (mid - vmin) / 2) /\ (mid <= v <= vmax -> x = / 2 + (v - mid) / (vmax - mid) / 2).
Proof.
  intros vmin mid vmax a i j v H G. unfold midpoint_normalize. rewrite get2_map, G. eexists. split; [reflexivity|]. unfold interp3. replace 0.5 with (/ 2) by lra.
  destruct (Rlt_dec vmax v), (Rlt_dec v vmin), (Rle_dec mid v), (Rle_dec vmax v), (Req_EM_T vmin v), (Req_EM_T mid v); try (exfalso; lra); repeat split; intros; try (exfalso; lra); try lra;
    try (assert (v = vmin) by lra; exfalso; congruence); try (assert (v = mid) by lra; exfalso; congruence); try (assert (v = mid) by lra; subst v); try (assert (v = vmin) by lra; subst v); try (assert (v = vmax) by lra; subst v); field; lra.
Qed.
Print Assumptions C115_scale.
(** Any array with an entry gets colours, and a larger number a larger colour. *)
Theorem C115_colours_order : forall a, (exists i j v, get2 a i j = Some v) -> exists c, colours a = Ok c /\
  forall i j i' j' v v' x x', get2 a i j = Some v -> get2 a i' j' = Some v' -> get2 c i j = Some x -> get2 c i' j' = Some x' -> v < v' -> x < x'.
Proof.
  intros a H. destruct (@colours_works a H) as [c E]. exists c. split; [assumption|]. intros i j i' j' v v' x x' G G' X X' L. destruct (@colours_inv a c E) as (lo & hi & Hlo & Hhi & ->). rewrite get2_map, G in X. rewrite get2_map, G' in X'. cbn in X, X'. inversion X. inversion X'. clear X X' H1 H2.
  pose proof (proj2 Hlo i j v G). pose proof (proj2 Hhi i j v G). pose proof (proj2 Hlo i' j' v' G'). pose proof (proj2 Hhi i' j' v' G').
  assert (N : forall u, lo <= u <= hi -> u < 0 -> interp3 u lo 0 hi 0 0.5 1 = / 2 + u * (/ 2 * / - lo) /\ 0 < / - lo) by (intros u Hu Nu; rewrite interp_neg by lra; split; [field; lra|apply Rinv_0_lt_compat; lra]).
  assert (P : forall u, lo <= u <= hi -> 0 < u -> interp3 u lo 0 hi 0 0.5 1 = / 2 + u * (/ 2 * / hi) /\ 0 < / hi) by (intros u Hu Nu; rewrite interp_pos by lra; split; [field; lra|apply Rinv_0_lt_compat; lra]).
  destruct (Rlt_dec v 0) as [Nv|Nv].
  - destruct (N v ltac:(lra) Nv) as [-> Q]. destruct (Rlt_dec v' 0) as [Nv'|Nv']; [destruct (N v' ltac:(lra) Nv') as [-> _]; nra|]. destruct (Rlt_dec 0 v') as [Pv'|Pv']; [destruct (P v' ltac:(lra) Pv') as [-> Q']; nra|].
    assert (v' = 0) by lra. subst v'. rewrite interp_zero by lra. destruct (Rlt_dec 0 hi); nra.
  - destruct (P v' ltac:(lra) ltac:(lra)) as [-> Q']. destruct (Rlt_dec 0 v) as [Pv|Pv]; [destruct (P v ltac:(lra) Pv) as [-> _]; nra|]. assert (v = 0) by lra. subst v. rewrite interp_zero by lra. destruct (Rlt_dec 0 hi); nra.
Qed.
Print Assumptions C115_colours_order.
(** Zero has the middle colour if some number is positive; else, if it is the largest number, the colour 1 of the largest numbers. *)
Theorem C115_zero_finding : forall a c i j, colours a = Ok c -> get2 a i j = Some 0 ->
  ((exists i' j' v, get2 a i' j' = Some v /\ 0 < v) -> get2 c i j = Some (/ 2)) /\ ((forall i' j' v, get2 a i' j' = Some v -> v <= 0) -> get2 c i j = Some 1).
Proof.
  intros a c i j E G. destruct (@colours_inv a c E) as (lo & hi & Hlo & Hhi & ->). rewrite get2_map, G. cbn [option_map]. pose proof (proj2 Hlo i j 0 G). pose proof (proj2 Hhi i j 0 G). rewrite interp_zero by lra. split.
  - intros (i' & j' & v & G' & P). pose proof (proj2 Hhi i' j' v G'). destruct (Rlt_dec 0 hi); [reflexivity|lra].
  - intros M. destruct Hhi as [(i' & j' & G') _]. specialize (M _ _ _ G'). destruct (Rlt_dec 0 hi); [lra|reflexivity].
Qed.
Print Assumptions C115_zero_finding.

(** ** Maps over the zone *)
(** plot_kx_ky: the entry (i, j) at the place (kx_i, ky_j), real and imaginary part. *)
Theorem C115_kxky : forall mat n1 n2 kx ky, shape2 mat n1 n2 -> (0 < n1)%Z -> (0 < n2)%Z -> zlen kx = n1 -> zlen ky = n2 -> exists p q, plot_kx_ky mat n2 kx ky = Ok (p, q) /\
  (forall a b v, In (a, b, v) p <-> exists i j z, zget kx i = Some a /\ zget ky j = Some b /\ get2 mat i j = Some z /\ v = fst z) /\
  (forall a b v, In (a, b, v) q <-> exists i j z, zget kx i = Some a /\ zget ky j = Some b /\ get2 mat i j = Some z /\ v = snd z).
Proof. intros mat n1 n2 kx ky H1 H2 H3 H4 H5. exact (@kx_ky_shown mat n1 n2 kx ky H1 H2 H3 H4 H5). Qed.
Print Assumptions C115_kxky.
(** On lattices with even numbers of momenta a shifted map shows every value at its momentum. *)
Lemma even_true n1 n2 f p : Z.even n1 = true -> Z.even n2 = true -> shifted_map n1 n2 f p -> true_map n1 n2 f p.
Proof.
  intros E1 E2 H a b v. rewrite (H a b v). split; intros (i & j & Ri & Rj & -> & -> & ->); exists i, j; unfold shifted_mom; rewrite E1, E2, !Rplus_0_r; tauto.
Qed.
(** The panels of the extrapolated self-energy *)
Theorem C115_extrap : forall (f : R -> R -> R) n1 n2 d, periodic2 f -> samples2 f n1 n2 d -> (2 <= n1)%Z -> (2 <= n2)%Z -> exists p c lo hi, extrap_panel n1 n2 d = Ok (p, c) /\
  is_min2 d lo /\ is_max2 d hi /\ shifted_map n1 n2 f p /\ shifted_map n1 n2 (fun kx ky => interp3 (f kx ky) lo 0 hi 0 0.5 1) c /\ (Z.even n1 = true -> Z.even n2 = true -> true_map n1 n2 f p).
Proof. intros f n1 n2 d P S H1 H2. destruct (@extrap_shown f n1 n2 d P S H1 H2) as (p & c & lo & hi & H). exists p, c, lo, hi. intuition. now apply even_true. Qed.
Print Assumptions C115_extrap.
(** plot_cont_fs: the frequency nearest to w_plot or the mean over the window, of the plane kz = 0. *)
Theorem C115_fs : forall g n1 n2 n3 w m w_int w_plot, samples4 g n1 n2 n3 w m -> periodic4 g -> (2 <= n1)%Z -> (2 <= n2)%Z -> (0 < n3)%Z -> (0 < zlen w)%Z ->
  exists F x0 p, plot_cont_fs n1 n2 w_int w_plot w m = Ok p /\ shown_of w_int w_plot w g F /\ nearest 0 w x0 /\
  shifted_map n1 n2 (fun kx ky => - 1 / PI * snd (F kx ky)) (p_awk p) /\ shifted_map n1 n2 (fun kx ky => fst (F kx ky)) (p_re p) /\ shifted_map n1 n2 (fun kx ky => inv_re (g kx ky 0 x0)) (p_qdp p).
Proof. intros g n1 n2 n3 w m w_int w_plot Hs P H1 H2 H3 Hw. exact (@fs_shown g n1 n2 n3 w m w_int w_plot Hs H1 H2 H3 Hw P). Qed.
Print Assumptions C115_fs.
Theorem C115_fs_even : forall g n1 n2 n3 w m w_int w_plot, samples4 g n1 n2 n3 w m -> periodic4 g -> (2 <= n1)%Z -> (2 <= n2)%Z -> (0 < n3)%Z -> (0 < zlen w)%Z -> Z.even n1 = true -> Z.even n2 = true ->
  exists F x0 p, plot_cont_fs n1 n2 w_int w_plot w m = Ok p /\ shown_of w_int w_plot w g F /\ nearest 0 w x0 /\
  true_map n1 n2 (fun kx ky => - 1 / PI * snd (F kx ky)) (p_awk p) /\ true_map n1 n2 (fun kx ky => fst (F kx ky)) (p_re p) /\ true_map n1 n2 (fun kx ky => inv_re (g kx ky 0 x0)) (p_qdp p).
Proof. intros g n1 n2 n3 w m w_int w_plot Hs P H1 H2 H3 Hw E1 E2. destruct (@fs_shown g n1 n2 n3 w m w_int w_plot Hs H1 H2 H3 Hw P) as (F & x0 & p & H). exists F, x0, p. intuition; now apply even_true. Qed.
Print Assumptions C115_fs_even.
(** With an odd number of momenta a shifted map does not: for cos(kx) the first value is wrong. *)
Theorem C115_odd_refuted : forall n1 n2, (2 <= n1)%Z -> (1 <= n2)%Z -> Z.even n1 = false -> periodic2 (fun kx _ => cos kx) /\ forall p, shifted_map n1 n2 (fun kx _ => cos kx) p -> ~ true_map n1 n2 (fun kx _ => cos kx) p.
Proof.
  intros n1 n2 H1 H2 Ev. split. { intros x y. split; [|reflexivity]. pose proof (cos_period x 1) as Hx. cbn [INR] in Hx. replace (x + 2 * PI) with (x + 2 * 1 * PI) by ring. exact Hx. }
  intros p S T. assert (I : In (mom n1 0 - PI, mom n2 0 - PI, cos (shifted_mom n1 0)) p). { apply S. exists 0%Z, 0%Z. repeat split; lia. }
  apply T in I. destruct I as (i & j & _ & _ & _ & _ & Q). unfold shifted_mom in Q. rewrite Ev in Q. unfold mom in Q. rewrite Rmult_0_r in Q. unfold Rdiv at 1 3 in Q. rewrite Rmult_0_l in Q.
  replace (0 - PI + PI / IZR n1) with (- (PI - PI / IZR n1)) in Q by ring. replace (0 - PI) with (- PI) in Q by ring. rewrite !cos_neg, cos_PI in Q.
  assert (N : 2 <= IZR n1) by (now apply IZR_le). assert (Hp := PI_RGT_0). assert (B : 0 < PI / IZR n1 < PI). { split; [apply Rdiv_lt_0_compat; lra|]. apply Rmult_lt_reg_r with (IZR n1); [lra|]. unfold Rdiv. rewrite Rmult_assoc, Rinv_l by lra. nra. }
  assert (Sn : 0 < sin (PI - PI / IZR n1)) by (apply sin_gt_0; lra). pose proof (sin2_cos2 (PI - PI / IZR n1)) as SC. unfold Rsqr in SC. rewrite Q in SC. nra.
Qed.
Print Assumptions C115_odd_refuted.
(** The third panel is the one of the frequency nearest to zero, whatever frequency or window the figure is made for and labelled with. *)
Theorem C115_qdp_finding : forall g n1 n2 n3 w m w_int w_int' w_plot w_plot', samples4 g n1 n2 n3 w m -> periodic4 g -> (2 <= n1)%Z -> (2 <= n2)%Z -> (0 < n3)%Z -> (0 < zlen w)%Z ->
  exists p p', plot_cont_fs n1 n2 w_int w_plot w m = Ok p /\ plot_cont_fs n1 n2 w_int' w_plot' w m = Ok p' /\ p_qdp p = p_qdp p'.
Proof.
  intros g n1 n2 n3 w m w_int w_int' w_plot w_plot' Hs P H1 H2 H3 Hw. destruct (@fs_shown g n1 n2 n3 w m w_int w_plot Hs H1 H2 H3 Hw P) as (F & x0 & p & E & _). destruct (@fs_shown g n1 n2 n3 w m w_int' w_plot' Hs H1 H2 H3 Hw P) as (F' & x0' & p' & E' & _). exists p, p'. split; [assumption|]. split; [assumption|].
  unfold plot_cont_fs in E, E'. destruct (layer (map4 cinv m) (argmin (map Rabs w))) as [inv|].
  2: { destruct (fs_data w_int w_plot w m); [|discriminate]. cbn [bind] in E. do 2 (match type of E with context [squeeze2 ?x] => destruct (squeeze2 x); [|discriminate] end; cbn [bind] in E). discriminate. }
  destruct (fs_data w_int w_plot w m); [|discriminate]. cbn [bind] in E. do 3 (match type of E with context [squeeze2 ?x] => destruct (squeeze2 x) eqn:?; [|discriminate] end; cbn [bind] in E).
  destruct (fs_data w_int' w_plot' w m); [|discriminate]. cbn [bind] in E'. do 3 (match type of E' with context [squeeze2 ?x] => destruct (squeeze2 x) eqn:?; [|discriminate] end; cbn [bind] in E').
  repeat match goal with H : squeeze2 ?x = Ok ?a, H' : squeeze2 ?x = Ok ?b |- _ => rewrite H in H'; inversion H'; subst; clear H' end.
  do 3 (match type of E with context [pcolormesh ?x ?y ?z] => destruct (pcolormesh x y z) eqn:?; [|discriminate] end; cbn [bind] in E).
  do 3 (match type of E' with context [pcolormesh ?x ?y ?z] => destruct (pcolormesh x y z) eqn:?; [|discriminate] end; cbn [bind] in E').
  inversion E. inversion E'. cbn. congruence.
Qed.
Print Assumptions C115_qdp_finding.
(** The window is (w_int, 0): a w_int that is not negative gives maps of zeros. *)
Theorem C115_window_finding : forall g n1 n2 n3 w m wi w_plot, samples4 g n1 n2 n3 w m -> periodic4 g -> (2 <= n1)%Z -> (2 <= n2)%Z -> (0 < n3)%Z -> (0 < zlen w)%Z -> 0 < wi ->
  exists p, plot_cont_fs n1 n2 (Some wi) w_plot w m = Ok p /\ forall a b v, In (a, b, v) (p_awk p) \/ In (a, b, v) (p_re p) -> v = 0.
Proof.
  intros g n1 n2 n3 w m wi w_plot Hs P H1 H2 H3 Hw Hwi. destruct (@fs_shown g n1 n2 n3 w m (Some wi) w_plot Hs H1 H2 H3 Hw P) as (F & x0 & p & E & S & _ & Ma & Mb & _). exists p. split; [assumption|]. cbn in S.
  assert (B : between wi w = []). { unfold between. clear -Hwi. induction w as [|x w IH]; [reflexivity|]. cbn. destruct (Rlt_dec x 0); [|assumption]. destruct (Rlt_dec wi x); [lra|assumption]. }
  intros a b v [I|I]; [apply Ma in I|apply Mb in I]; destruct I as (i & j & _ & _ & _ & _ & ->); rewrite S; unfold window_mean; rewrite B; cbn; unfold Rdiv; ring.
Qed.
Print Assumptions C115_window_finding.

(** The unshifted maps: pixels, with kx upwards and ky to the right. *)
Theorem C115_no_shift : forall g n1 n2 n3 w m w_int w_plot, samples4 g n1 n2 n3 w m -> (2 <= n1)%Z -> (2 <= n2)%Z -> (0 < n3)%Z -> (0 < zlen w)%Z ->
  exists F x0 p, plot_cont_fs_no_shift n1 n2 w_int w_plot w m = Ok p /\ shown_of w_int w_plot w g F /\ nearest 0 w x0 /\
  pixel_map n1 n2 (fun kx ky => - 1 / PI * snd (F kx ky)) (p_awk p) /\ pixel_map n1 n2 (fun kx ky => fst (F kx ky)) (p_re p) /\ pixel_map n1 n2 (fun kx ky => inv_re (g kx ky 0 x0)) (p_qdp p).
Proof. intros g n1 n2 n3 w m w_int w_plot Hs H1 H2 H3 Hw. exact (@no_shift_shown g n1 n2 n3 w m w_int w_plot Hs H1 H2 H3 Hw). Qed.
Print Assumptions C115_no_shift.
(** So on a square lattice pixel (i, j) - i to the right, labelled kx - shows the value of (kx_j, ky_i) and no other, and its centre is not at its momentum except in the middle. *)
Theorem C115_no_shift_refuted : forall n f p, (2 <= n)%Z -> pixel_map n n f p -> let place := pixel (mom n (n - 1)) n in
  (forall i j v, (0 <= i < n)%Z -> (0 <= j < n)%Z -> (In (place i, place j, v) p <-> v = f (mom n j) (mom n i))) /\
  (forall i, (0 <= i < n)%Z -> (place i = mom n i <-> (2 * i = n - 1)%Z)).
Proof.
  intros n f p H M place. pose proof PI_RGT_0 as Hp. assert (N : 2 <= IZR n) by (now apply IZR_le). assert (N1 : IZR (n - 1) = IZR n - 1) by (now rewrite minus_IZR).
  assert (X : 0 < mom n (n - 1) / IZR n). { unfold mom. rewrite N1. apply Rdiv_lt_0_compat; [|lra]. apply Rdiv_lt_0_compat; [|lra]. apply Rmult_lt_0_compat; lra. }
  assert (Inj : forall a b, place a = place b -> a = b). { intros a b Q. unfold place, pixel in Q. apply Rmult_eq_reg_r in Q; [|lra]. apply eq_IZR. lra. }
  split.
  - intros i j v Hi Hj. rewrite (M _ _ v). split.
    + intros (i' & j' & _ & _ & Ea & Eb & ->). apply Inj in Ea. apply Inj in Eb. now subst.
    + intros ->. exists j, i. tauto.
  - intros i Hi. assert (E : place i - mom n i = 2 * PI / (IZR n * IZR n) * ((IZR n - 1 - 2 * IZR i) / 2)) by (unfold place, pixel, mom; rewrite N1; field; lra).
    assert (Q : 0 < 2 * PI / (IZR n * IZR n)) by (apply Rdiv_lt_0_compat; nra). split.
    + intros Z. apply eq_IZR. rewrite mult_IZR, N1. assert (Y : 2 * PI / (IZR n * IZR n) * ((IZR n - 1 - 2 * IZR i) / 2) = 0) by lra. apply Rmult_integral in Y. destruct Y; lra.
    + intros Z. assert (Y : 2 * IZR i = IZR n - 1) by (rewrite <- N1, <- Z, mult_IZR; reflexivity). rewrite Y in E. replace ((IZR n - 1 - (IZR n - 1)) / 2) with 0 in E by field. rewrite Rmult_0_r in E. lra.
Qed.
Print Assumptions C115_no_shift_refuted.

(** ** The dispersion of a continued susceptibility *)
(** The momentum of a point of the path, the value there *)
Definition chi_at (g : R -> R -> R -> R -> R * R) (n1 n2 n3 : Z) (p : zpoint) (x : R) : R * R := g (mom n1 (fst (fst p))) (mom n2 (snd (fst p))) (mom n3 (snd p)) x.
Definition on_lattice (n1 n2 n3 : Z) (kpts : list zpoint) : Prop := forall p, In p kpts -> (0 <= fst (fst p) < n1)%Z /\ (0 <= snd (fst p) < n2)%Z /\ (0 <= snd p < n3)%Z.
(** The map shows w Re chi at every point of the path and every frequency; the line has, for every point of the path, a frequency where w Re chi is largest; the limits
    of the frequency axis are the frequency after the one nearest to zero, and twice the largest frequency of the line. *)
Theorem C115_dispersion : forall g n1 n2 n3 w chi kax kpts fig, samples4 g n1 n2 n3 w chi -> on_lattice n1 n2 n3 kpts -> zlen kax = zlen kpts -> (0 < zlen w)%Z ->
  plot_chi_along_kpath chi w kax kpts = Ok fig ->
  (forall a b v, In (a, b, v) (chi_map fig) <-> exists i p, zget kax i = Some a /\ zget kpts i = Some p /\ In b w /\ v = b * fst (chi_at g n1 n2 n3 p b)) /\
  zlen (chi_line fig) = zlen kpts /\
  (forall i p, zget kpts i = Some p -> exists a b, zget kax i = Some a /\ zget (chi_line fig) i = Some (a, b) /\ In b w /\ forall y, In y w -> y * fst (chi_at g n1 n2 n3 p y) <= b * fst (chi_at g n1 n2 n3 p b)) /\
  (exists t x0, zget w t = Some x0 /\ nearest 0 w x0 /\ zget w (t + 1) = Some (fst (chi_ylim fig))) /\
  (exists ab, In ab (chi_line fig) /\ snd (chi_ylim fig) = 2 * snd ab) /\ forall ab, In ab (chi_line fig) -> 2 * snd ab <= snd (chi_ylim fig).
Proof. intros g n1 n2 n3 w chi kax kpts fig Hs Hk La Hw E. exact (@chi_run g n1 n2 n3 w chi kax kpts Hs Hk La Hw fig E). Qed.
Print Assumptions C115_dispersion.
(** Let t be the place of the frequency nearest to zero.  The figure is made if there is a frequency after it, else IndexError: frequencies that end at zero are not allowed. *)
Theorem C115_dispersion_refuted : forall g n1 n2 n3 w chi kax kpts t x0, samples4 g n1 n2 n3 w chi -> on_lattice n1 n2 n3 kpts -> zlen kax = zlen kpts -> (0 < zlen kpts)%Z ->
  zget w t = Some x0 -> (forall j x, zget w j = Some x -> j <> t -> Rabs x0 < Rabs x) ->
  ((t + 1 < zlen w)%Z -> exists fig, plot_chi_along_kpath chi w kax kpts = Ok fig) /\ ((t + 1 = zlen w)%Z -> plot_chi_along_kpath chi w kax kpts = Raise IndexError).
Proof.
  intros g n1 n2 n3 w chi kax kpts t x0 Hs Hk La Hp Ex Mx. assert (Hw : (0 < zlen w)%Z) by (pose proof (zget_some_range _ _ Ex); lia). pose proof (@chi_works g n1 n2 n3 w chi kax kpts Hs Hk La Hw Hp t x0 Ex Mx) as H.
  split; intros L; destruct (Z.ltb_spec (t + 1) (zlen w)); try lia; assumption.
Qed.
Print Assumptions C115_dispersion_refuted.
(** For increasing frequencies that start at zero the figure is made, and every point of the path with a positive Re chi somewhere has its frequency between the limits. *)
Theorem C115_frame : forall g n1 n2 n3 w0 w chi kax kpts, samples4 g n1 n2 n3 (0 :: w0 :: w) chi -> on_lattice n1 n2 n3 kpts -> zlen kax = zlen kpts -> (0 < zlen kpts)%Z -> StronglySorted Rlt (0 :: w0 :: w) ->
  exists fig, plot_chi_along_kpath chi (0 :: w0 :: w) kax kpts = Ok fig /\ fst (chi_ylim fig) = w0 /\
  forall i p y, zget kpts i = Some p -> In y (w0 :: w) -> 0 < fst (chi_at g n1 n2 n3 p y) -> exists a b, zget (chi_line fig) i = Some (a, b) /\ fst (chi_ylim fig) <= b <= snd (chi_ylim fig).
Proof.
  intros g n1 n2 n3 w0 w chi kax kpts Hs Hk La Hp So. assert (Pos : forall y, In y (w0 :: w) -> 0 < y). { inversion So. subst. now apply Forall_forall. }
  assert (Low : forall y, In y (w0 :: w) -> w0 <= y). { inversion So as [|? ? S2 _]. subst. inversion S2 as [|? ? _ F]. subst. intros y [->|I]; [lra|]. rewrite Forall_forall in F. specialize (F y I). lra. }
  assert (Hw : (0 < zlen (0%R :: w0 :: w))%Z) by (rewrite zlen_cons; pose proof (zlen_nonneg (w0 :: w)); lia).
  destruct (@C115_dispersion_refuted g n1 n2 n3 (0 :: w0 :: w) chi kax kpts 0%Z 0 Hs Hk La Hp eq_refl) as [W _]. { intros j x E Nj. rewrite zget_cons in E. destruct (Z.eqb_spec j 0); [lia|]. apply zget_In in E. rewrite Rabs_R0. apply Rabs_pos_lt. specialize (Pos x E). lra. }
  destruct W as [fig E]. { rewrite !zlen_cons. pose proof (zlen_nonneg w). lia. } exists fig. split; [assumption|]. destruct (@C115_dispersion g n1 n2 n3 (0 :: w0 :: w) chi kax kpts fig Hs Hk La Hw E) as (_ & _ & L & (t & x0 & Et & [_ Nx] & Ew) & _ & U).
  assert (F : fst (chi_ylim fig) = w0). { specialize (Nx 0 (or_introl eq_refl)). rewrite !Rminus_0_r, Rabs_R0 in Nx. rewrite zget_cons in Et. destruct (Z.eqb_spec t 0) as [->|Nt]; [cbn in Ew; now inversion Ew|]. apply zget_In in Et. specialize (Pos x0 Et). assert (0 < Rabs x0) by (apply Rabs_pos_lt; lra). lra. }
  split; [assumption|]. intros i p y Ep Iy Py. destruct (L i p Ep) as (a & b & _ & El & Ib & M). exists a, b. split; [assumption|]. specialize (M y (or_intror Iy)). specialize (U _ (zget_In _ _ El)). cbn [snd] in U. specialize (Pos y Iy).
  assert (0 < y * fst (chi_at g n1 n2 n3 p y)) by nra. destruct Ib as [<-|Ib]; [lra|]. pose proof (Low b Ib). specialize (Low w0 (or_introl eq_refl)). assert (0 < w0) by (inversion So as [|? ? _ Fa]; rewrite Forall_forall in Fa; apply Fa; now left). rewrite F. lra.
Qed.
Print Assumptions C115_frame.

(** ** Concrete cases *)
Definition ex_g (kx ky kz x : R) : R * R := (2 + cos kx + cos ky, -1).
Lemma ex_g_per : periodic4 ex_g.
Proof. intros t x y z. unfold ex_g. pose proof (cos_period x 1) as Hx. pose proof (cos_period y 1) as Hy. cbn [INR] in *. replace (x + 2 * PI) with (x + 2 * 1 * PI) by ring. replace (y + 2 * PI) with (y + 2 * 1 * PI) by ring. rewrite Hx, Hy. auto. Qed.
Example C115_ex_fs : exists p, plot_cont_fs 2 4 None (1 / 10) [-1; 0; 1] (values4 ex_g 2 4 1 [-1; 0; 1]) = Ok p /\ true_map 2 4 (fun kx ky => 2 + cos kx + cos ky) (p_re p).
Proof.
  destruct (@C115_fs_even ex_g 2 4 1 [-1; 0; 1] _ None (1 / 10) (values4_ok ex_g [-1; 0; 1] (n1 := 2) (n2 := 4) (n3 := 1) ltac:(lia) ltac:(lia) ltac:(lia)) ex_g_per ltac:(lia) ltac:(lia) ltac:(lia) ltac:(reflexivity) eq_refl eq_refl) as (F & x0 & p & E & (x & _ & S) & _ & _ & M & _).
  exists p. split; [exact E|]. intros a b v. rewrite (M a b v), S. reflexivity.
Qed.
Example C115_ex_colours : colours [[-2; 0]; [1; -1]] = Ok [[0; / 2]; [1; / 4]].
Proof.
  unfold colours, rmin, rmax. cbn [concat app fold_left bind]. rewrite (Rmin_left (-2) 0), (Rmin_left (-2) 1), (Rmin_left (-2) (-1)), (Rmax_right (-2) 0), (Rmax_right 0 1), (Rmax_left 1 (-1)) by lra. unfold midpoint_normalize. cbn [map]. rewrite (interp_neg (v := -2)), (interp_neg (v := -1)), interp_zero, (interp_pos (v := 1)) by lra.
  destruct (Rlt_dec 0 1); [|lra]. repeat f_equal; field.
Qed.
Example C115_ex_chi : exists fig, plot_chi_along_kpath (values4 ex_g 2 4 1 [0; 1; 2]) [0; 1; 2] [0; 1] [(0, 1, 0)%Z; (1, 1, 0)%Z] = Ok fig /\ fst (chi_ylim fig) = 1.
Proof.
  destruct (@C115_frame ex_g 2 4 1 1 [2] _ [0; 1] [(0, 1, 0)%Z; (1, 1, 0)%Z] (values4_ok ex_g [0; 1; 2] (n1 := 2) (n2 := 4) (n3 := 1) ltac:(lia) ltac:(lia) ltac:(lia))) as (fig & E & F & _).
  - intros p [<-|[<-|[]]]; cbn; lia.
  - reflexivity.
  - reflexivity.
  - repeat (constructor; [|repeat (constructor; try lra)]); constructor.
  - eauto.
Qed.
Example C115_ex_scale : get2 (midpoint_normalize (-1) 0 2 [[-3; 5; 1]]) 0 0 = Some 0 /\ get2 (midpoint_normalize (-1) 0 2 [[-3; 5; 1]]) 0 1 = Some 1 /\ get2 (midpoint_normalize (-1) 0 2 [[-3; 5; 1]]) 0 2 = Some (3 / 4).
Proof.
  destruct (@C115_scale (-1) 0 2 [[-3; 5; 1]] 0 0 (-3) ltac:(lra) eq_refl) as (x & -> & X & _). destruct (@C115_scale (-1) 0 2 [[-3; 5; 1]] 0 1 5 ltac:(lra) eq_refl) as (y & -> & _ & Y & _).
  destruct (@C115_scale (-1) 0 2 [[-3; 5; 1]] 0 2 1 ltac:(lra) eq_refl) as (z & -> & _ & _ & _ & Z). rewrite X, Y, Z by lra. repeat split; f_equal; lra.
Qed.
