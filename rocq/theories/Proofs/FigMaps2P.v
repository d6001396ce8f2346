(** Proofs about Model/FigMaps.v: unshifted maps and the dispersion of a susceptibility. *)
From Coq Require Import ZArith Reals List Lia Lra.
From Verif Require Import Base.PyBase Base.Arr Base.PyFacts Base.RSum Model.BrillouinZone Model.KPath Model.MaxEnt Model.RealMesh Model.ShownK Model.PathPlot Model.SwkAnalysis Model.FigMaps.
From Verif Require Import Spec.BZSpec Spec.ShownKSpec Spec.SwkSpec Spec.FigMapsSpec Proofs.BrillouinZoneP Proofs.KPathP Proofs.RealMeshP Proofs.ShownKP Proofs.SwkP Proofs.Swk2P Proofs.Swk3P Proofs.VertexBuildP Proofs.FigMapsP.
Import ListNotations.
Set Implicit Arguments.
Local Open Scope R_scope.

(** * imshow *)
Lemma imshow_ok x0 x1 y0 y1 d n1 n2 : shape2 d n1 n2 -> (0 < n1)%Z ->
  forall a b v, In (a, b, v) (imshow x0 x1 y0 y1 d) <-> exists i j, a = x0 + (IZR j + / 2) * ((x1 - x0) / IZR n2) /\ b = y0 + (IZR i + / 2) * ((y1 - y0) / IZR n1) /\ get2 d i j = Some v.
Proof.
  intros S H1 a b v. unfold imshow. rewrite (@dim1_shape _ d n1 n2 S) by lia. destruct S as [L Hr]. rewrite L. rewrite in_concat. split.
  - intros (row & I & Iv). apply zget_in_iff in I. destruct I as (i & _ & E). rewrite zget_map2 in E. destruct (zget (arange 0 n1) i) as [i'|] eqn:Ei; [|discriminate]. destruct (zget d i) as [r|] eqn:Er; [|discriminate].
    pose proof (zget_some_range _ _ Ei) as Ri. rewrite zlen_arange in Ri. rewrite zget_arange in Ei by lia. inversion Ei. subst i'. cbn in E. inversion E. subst row. clear E.
    apply zget_in_iff in Iv. destruct Iv as (j & _ & E). rewrite zget_map2 in E. destruct (zget (arange 0 (zlen r)) j) as [j'|] eqn:Ej; [|discriminate]. destruct (zget r j) as [v'|] eqn:Ev; [|discriminate].
    pose proof (zget_some_range _ _ Ev) as Rj. rewrite zget_arange in Ej by lia. inversion Ej. subst j'. inversion E. exists i, j. unfold get2. rewrite Er. cbn. subst. auto.
  - intros (i & j & -> & -> & Ev). unfold get2 in Ev. destruct (zget d i) as [r|] eqn:Er; [|discriminate]. cbn in Ev. pose proof (zget_some_range _ _ Er) as Ri. pose proof (zget_some_range _ _ Ev) as Rj. rewrite L in Ri.
    eexists. split.
    + apply zget_in_iff. exists i. rewrite zget_map2, Er, zget_arange by lia. split; [|reflexivity]. rewrite zlen_map2, zlen_arange. lia.
    + apply zget_in_iff. exists j. rewrite zget_map2, Ev, zget_arange by lia. split; [|reflexivity]. rewrite zlen_map2, zlen_arange. lia.
Qed.
Lemma get2_some_range A (d : list (list A)) n1 n2 i j v : shape2 d n1 n2 -> get2 d i j = Some v -> (0 <= i < n1)%Z /\ (0 <= j < n2)%Z.
Proof. intros [L H] E. unfold get2 in E. destruct (zget d i) as [r|] eqn:Er; [|discriminate]. cbn in E. pose proof (zget_some_range _ _ Er). pose proof (zget_some_range _ _ E). rewrite (H r (zget_In _ _ Er)) in *. lia. Qed.
Lemma pixels (f : R -> R -> R) d n1 n2 : samples2 f n1 n2 d -> (0 < n1)%Z -> pixel_map n1 n2 f (imshow 0 (mom n1 (n1 - 1)) 0 (mom n2 (n2 - 1)) d).
Proof.
  intros [S V] H1 a b v. rewrite (imshow_ok _ _ _ _ S H1). unfold pixel. split.
  - intros (i & j & -> & -> & E). destruct (@get2_some_range _ d n1 n2 i j v S E) as [Ri Rj]. exists i, j. rewrite V in E by assumption. inversion E. rewrite !Rminus_0_r, !Rplus_0_l. tauto.
  - intros (i & j & Ri & Rj & -> & -> & ->). exists i, j. rewrite V by assumption. rewrite !Rminus_0_r, !Rplus_0_l. tauto.
Qed.
Lemma extent n1 n2 : (0 < n1)%Z -> (0 < n2)%Z -> get_extent n1 n2 = Ok [0; mom n1 (n1 - 1); 0; mom n2 (n2 - 1)].
Proof.
  intros H1 H2. unfold get_extent.
  assert (E : forall n, (0 < n)%Z -> py_get (k_axis n) 0 = Ok 0 /\ py_get (k_axis n) (-1) = Ok (mom n (n - 1))).
  { intros n H. assert (Ln : zlen (k_axis n) = n) by (unfold k_axis; rewrite zlen_map, zlen_arange; lia). assert (G : forall i, (0 <= i < n)%Z -> zget (k_axis n) i = Some (mom n i)).
    { intros i Hi. unfold k_axis. rewrite zget_map, zget_arange by lia. replace (0 + i)%Z with i by ring. reflexivity. }
    split; unfold py_get; rewrite ?Ln; cbn [Z.ltb Z.compare].
    - rewrite G by lia. now rewrite mom_0.
    - replace (-1 + n)%Z with (n - 1)%Z by ring. rewrite G by lia. reflexivity. }
  destruct (E n1 H1) as [-> ->]. destruct (E n2 H2) as [-> ->]. reflexivity.
Qed.
Section NoShift.
Variables (g : R -> R -> R -> R -> C) (n1 n2 n3 : Z) (w : list R) (m : arr4 C) (w_int : option R) (w_plot : R).
Hypotheses (Hs : samples4 g n1 n2 n3 w m) (H1 : (2 <= n1)%Z) (H2 : (2 <= n2)%Z) (H3 : (0 < n3)%Z) (Hw : (0 < zlen w)%Z).
Lemma no_shift_shown : exists F x0 p, plot_cont_fs_no_shift n1 n2 w_int w_plot w m = Ok p /\ shown_of w_int w_plot w g F /\ nearest 0 w x0 /\
  pixel_map n1 n2 (fun kx ky => - 1 / PI * snd (F kx ky)) (p_awk p) /\ pixel_map n1 n2 (fun kx ky => fst (F kx ky)) (p_re p) /\ pixel_map n1 n2 (fun kx ky => inv_re (g kx ky 0 x0)) (p_qdp p).
Proof.
  destruct (@fs_ok g n1 n2 n3 w m w_int w_plot Hs H3 Hw) as (F & l & El & Sl & HF). destruct (@inv_layer g n1 n2 n3 w m Hs H3 Hw) as (x0 & q & N0 & Eq & Sq).
  pose proof (samples2_map (fun g => - 1 / PI * snd g) Sl) as Sa. pose proof (samples2_map fst Sl) as Sb.
  eexists F, x0, (FsFig _ _ _). split.
  - unfold plot_cont_fs_no_shift. rewrite El. cbn [bind]. cbv zeta. rewrite (squeeze_ok (proj1 Sa) H1 H2). cbn [bind]. rewrite (squeeze_ok (proj1 Sb) H1 H2). cbn [bind]. rewrite Eq. cbn [bind]. rewrite (squeeze_ok (proj1 Sq) H1 H2). cbn [bind].
    rewrite extent by lia. cbn [bind]. reflexivity.
  - split; [exact HF|]. split; [exact N0|]. cbn [p_awk p_re p_qdp]. split; [|split].
    + apply (@pixels (fun kx ky => - 1 / PI * snd (F kx ky))); [exact Sa|lia].
    + apply (@pixels (fun kx ky => fst (F kx ky))); [exact Sb|lia].
    + apply (@pixels (fun kx ky => inv_re (g kx ky 0 x0))); [exact Sq|lia].
Qed.
End NoShift.

(** * one panel of the extrapolation, and plot_kx_ky *)
Lemma extrap_shown (f : R -> R -> R) n1 n2 d : periodic2 f -> samples2 f n1 n2 d -> (2 <= n1)%Z -> (2 <= n2)%Z ->
  exists p c lo hi, extrap_panel n1 n2 d = Ok (p, c) /\ is_min2 d lo /\ is_max2 d hi /\ shifted_map n1 n2 f p /\ shifted_map n1 n2 (fun kx ky => interp3 (f kx ky) lo 0 hi 0 0.5 1) c.
Proof.
  intros P S H1 H2. destruct (@colours_works d) as [col Ec]. { exists 0%Z, 0%Z, (f (mom n1 0) (mom n2 0)). apply S; lia. }
  destruct (@colours_inv d col Ec) as (lo & hi & Hlo & Hhi & E). destruct (shifted_drawn (nk := None) P S (or_introl eq_refl) ltac:(lia) ltac:(lia)) as (p & Ep & Mp).
  pose proof (samples2_map (fun v => interp3 v lo 0 hi 0 0.5 1) S) as Sc. destruct (shifted_drawn (nk := None) (periodic2_map (fun v => interp3 v lo 0 hi 0 0.5 1) P) Sc (or_introl eq_refl) ltac:(lia) ltac:(lia)) as (c & Ecc & Mc).
  exists p, c, lo, hi. split; [|tauto]. unfold extrap_panel. rewrite (squeeze_ok (proj1 S) H1 H2). cbn [bind]. rewrite Ec. cbn [bind]. rewrite Ep. cbn [bind]. subst col. rewrite Ecc. reflexivity.
Qed.
Lemma kx_ky_shown mat n1 n2 kx ky : shape2 mat n1 n2 -> (0 < n1)%Z -> (0 < n2)%Z -> zlen kx = n1 -> zlen ky = n2 ->
  exists p q, plot_kx_ky mat n2 kx ky = Ok (p, q) /\
    (forall a b v, In (a, b, v) p <-> exists i j z, zget kx i = Some a /\ zget ky j = Some b /\ get2 mat i j = Some z /\ v = fst z) /\
    (forall a b v, In (a, b, v) q <-> exists i j z, zget kx i = Some a /\ zget ky j = Some b /\ get2 mat i j = Some z /\ v = snd z).
Proof.
  intros S H1 H2 Lx Ly. destruct (@drawn (map (map fst) mat) n1 n2 kx ky) as (p & Ep & Mp); try assumption; [now apply shape2_map|].
  destruct (@drawn (map (map snd) mat) n1 n2 kx ky) as (q & Eq & Mq); try assumption; [now apply shape2_map|]. exists p, q. split; [unfold plot_kx_ky; rewrite Ep; cbn [bind]; now rewrite Eq|].
  unfold C in *. split; intros a b v; [rewrite Mp|rewrite Mq]; (split; [intros (i & j & Ei & Ej & E); rewrite get2_map in E; destruct (get2 mat i j) as [z|] eqn:Ez; [|cbn in E; congruence]; cbn in E; exists i, j, z; repeat split; congruence|]);
    intros (i & j & z & Ei & Ej & Ez & ->); exists i, j; rewrite get2_map, Ez; auto.
Qed.

(** * dispersion *)
Lemma cgt_fst a b : (cgt a b = true -> fst b <= fst a) /\ (cgt a b = false -> fst a <= fst b).
Proof. unfold cgt. destruct (Rlt_dec (fst b) (fst a)); [split; [lra|discriminate]|]. destruct (Req_EM_T (fst a) (fst b)); [|split; [discriminate|lra]]. split; lra. Qed.
Lemma argmaxc_most l : forall best ib i, let k := argmaxc_from best ib i l in
  (k = ib /\ forall j x, zget l j = Some x -> fst x <= fst best) \/ (exists v, zget l (k - i) = Some v /\ fst best <= fst v /\ forall j x, zget l j = Some x -> fst x <= fst v).
Proof.
  induction l as [|y l IH]; intros best ib i; cbn [argmaxc_from]; cbv zeta.
  - left. split; [reflexivity|]. intros j x H. now rewrite zget_nil in H.
  - destruct (cgt_fst y best) as [C1 C2]. destruct (cgt y best) eqn:Ec.
    + specialize (C1 eq_refl). clear C2. destruct (IH y i (i + 1)%Z) as [[E M]|(v & Ev & Lv & M)].
      * right. exists y. rewrite E. replace (i - i)%Z with 0%Z by ring. split; [reflexivity|]. split; [lra|]. intros j x Hx. rewrite zget_cons in Hx. destruct (Z.eqb_spec j 0); [inversion Hx; lra|]. eauto.
      * right. exists v. pose proof (zget_some_range _ _ Ev). split. { rewrite zget_cons. destruct (Z.eqb_spec (argmaxc_from y i (i + 1) l - i) 0); [lia|]. now replace (argmaxc_from y i (i + 1) l - i - 1)%Z with (argmaxc_from y i (i + 1) l - (i + 1))%Z by ring. }
        split; [lra|]. intros j x Hx. rewrite zget_cons in Hx. destruct (Z.eqb_spec j 0); [inversion Hx; subst; lra|]. eauto.
    + specialize (C2 eq_refl). clear C1. destruct (IH best ib (i + 1)%Z) as [[E M]|(v & Ev & Lv & M)].
      * left. split; [assumption|]. intros j x Hx. rewrite zget_cons in Hx. destruct (Z.eqb_spec j 0); [inversion Hx; subst; lra|]. eauto.
      * right. exists v. pose proof (zget_some_range _ _ Ev). split. { rewrite zget_cons. destruct (Z.eqb_spec (argmaxc_from best ib (i + 1) l - i) 0); [lia|]. now replace (argmaxc_from best ib (i + 1) l - i - 1)%Z with (argmaxc_from best ib (i + 1) l - (i + 1))%Z by ring. }
        split; [assumption|]. intros j x Hx. rewrite zget_cons in Hx. destruct (Z.eqb_spec j 0); [inversion Hx; subst; lra|]. eauto.
Qed.
Lemma argmaxc_ok l : (0 < zlen l)%Z -> exists k v, argmaxc l = Ok k /\ zget l k = Some v /\ forall j x, zget l j = Some x -> fst x <= fst v.
Proof.
  destruct l as [|y l]; [rewrite zlen_nil; lia|]. intros _. unfold argmaxc. destruct (argmaxc_most l y 0%Z 1%Z) as [[E M]|(v & Ev & Lv & M)].
  - exists 0%Z, y. rewrite E. split; [reflexivity|]. split; [reflexivity|]. intros j x Hx. rewrite zget_cons in Hx. destruct (Z.eqb_spec j 0); [inversion Hx; lra|]. eauto.
  - eexists. exists v. split; [reflexivity|]. pose proof (zget_some_range _ _ Ev). split. { rewrite zget_cons. destruct (Z.eqb_spec (argmaxc_from y 0 1 l) 0); [lia|]. assumption. }
    intros j x Hx. rewrite zget_cons in Hx. destruct (Z.eqb_spec j 0); [inversion Hx; subst; lra|]. eauto.
Qed.

Section Chi.
Variables (g : R -> R -> R -> R -> C) (n1 n2 n3 : Z) (w : list R) (chi : arr4 C) (kax : list R) (kpts : list zpoint).
Hypotheses (Hs : samples4 g n1 n2 n3 w chi) (Hk : forall p, In p kpts -> (0 <= fst (fst p) < n1)%Z /\ (0 <= snd (fst p) < n2)%Z /\ (0 <= snd p < n3)%Z) (La : zlen kax = zlen kpts) (Hw : (0 < zlen w)%Z) (Hp : (0 < zlen kpts)%Z).
Definition at_pt (p : zpoint) (x : R) : C := g (mom n1 (fst (fst p))) (mom n2 (snd (fst p))) (mom n3 (snd p)) x.
Lemma kpath_vals : map_to_kpath kpts chi = Ok (map (fun p => map (at_pt p) w) kpts).
Proof.
  unfold map_to_kpath. apply mapM_fn. intros [[x y] z] I. destruct (Hk _ I) as (Rx & Ry & Rz). cbn [fst snd] in *. destruct Hs as [[S H] V].
  destruct (@get3_range _ _ n1 n2 n3 x y z S Rx Ry Rz) as [s Es]. pose proof Es as Es'. unfold get3, get2 in Es'. destruct (zget chi x) as [a|] eqn:Ea; [|discriminate]. cbn in Es'. destruct (zget a y) as [b|] eqn:Eb; [|discriminate]. cbn in Es'.
  rewrite (py_get_nonneg chi (i := x) (a := a)) by (lia || assumption). cbn [bind]. rewrite (py_get_nonneg a (i := y) (a := b)) by (lia || assumption). cbn [bind]. rewrite (py_get_nonneg b (i := z) (a := s)) by (lia || assumption).
  f_equal. apply zget_ext; [rewrite zlen_map; exact (H _ _ _ _ Es)|]. intros t Ht. rewrite zget_map. rewrite (H _ _ _ _ Es) in Ht. destruct (@zget_in_range _ w t Ht) as [v Ev].
  pose proof (V x y z t v Rx Ry Rz Ev) as Vt. unfold get4 in Vt. rewrite Es in Vt. cbn in Vt. unfold C in *. rewrite Vt, Ev. reflexivity.
Qed.
Definition ridge_at (p : zpoint) (b : R) : Prop := In b w /\ forall y, In y w -> y * fst (at_pt p y) <= b * fst (at_pt p b).
Lemma peaks_ok : exists peaks wp, mapM (fun s => argmaxc (map2 (fun g x => (fst g * x, snd g * x)) s w)) (map (fun p => map (at_pt p) w) kpts) = Ok peaks /\ mapM (py_get w) peaks = Ok wp /\
  zlen wp = zlen kpts /\ forall i p, zget kpts i = Some p -> exists b, zget wp i = Some b /\ ridge_at p b.
Proof.
  assert (O : forall p, exists k b, argmaxc (map2 (fun (g : C) x => (fst g * x, snd g * x)) (map (at_pt p) w) w) = Ok k /\ py_get w k = Ok b /\ ridge_at p b).
  { intros p. set (l := map2 _ _ _). assert (G : forall t, zget l t = option_map (fun x => (fst (at_pt p x) * x, snd (at_pt p x) * x)) (zget w t)).
    { intros t. unfold l. rewrite zget_map2, zget_map. destruct (zget w t); reflexivity. }
    destruct (@argmaxc_ok l) as (k & v & E & Ev & M); [unfold l; rewrite zlen_map2, zlen_map; lia|]. pose proof Ev as Ev'. rewrite G in Ev'. destruct (zget w k) as [b|] eqn:Eb; [|discriminate]. cbn in Ev'. inversion Ev'; subst v.
    exists k, b. split; [assumption|]. pose proof (zget_some_range _ _ Eb). split; [apply py_get_nonneg; [lia|assumption]|]. split; [eapply zget_In; eauto|]. intros y I. apply In_zget in I. destruct I as (j & _ & Ej).
    specialize (M j (fst (at_pt p y) * y, snd (at_pt p y) * y)). rewrite G, Ej in M. specialize (M eq_refl). cbn [fst] in M. lra. }
  clear La Hk Hp. induction kpts as [|p ps IH].
  - exists [], []. repeat split; intros; now rewrite zget_nil in *.
  - destruct IH as (pk & wp & E1 & E2 & L & V). destruct (O p) as (k & b & A1 & A2 & A3). exists (k :: pk), (b :: wp). cbn [map mapM]. unfold C in *. rewrite A1. cbn [bind]. rewrite E1. cbn [bind mapM]. rewrite A2. cbn [bind]. rewrite E2.
    split; [reflexivity|]. split; [reflexivity|]. split; [rewrite !zlen_cons; lia|]. intros i q Eq. rewrite zget_cons in *. destruct (Z.eqb_spec i 0); [inversion Eq; subst; eauto|]. eauto.
Qed.
Lemma chi_cells : exists im, pcolormesh kax w (map2 (fun x row => map (fun g : C => fst g * x) row) w (transpose (zlen w) (map (fun p => map (at_pt p) w) kpts))) = Ok im /\
  forall a b v, In (a, b, v) im <-> exists i p, zget kax i = Some a /\ zget kpts i = Some p /\ In b w /\ v = b * fst (at_pt p b).
Proof.
  set (cp := map (fun p => map (at_pt p) w) kpts). assert (Sc : shape2 cp (zlen kpts) (zlen w)).
  { split; [unfold cp; now rewrite zlen_map|]. intros r I. unfold cp in I. apply in_map_iff in I. destruct I as (p & <- & _). now rewrite zlen_map. }
  assert (Gc : forall i t, get2 cp i t = obind (zget kpts i) (fun p => option_map (at_pt p) (zget w t))).
  { intros i t. unfold get2, cp. rewrite zget_map. destruct (zget kpts i) as [p|]; [|reflexivity]. cbn. now rewrite zget_map. }
  set (d := map2 _ _ _). assert (Sd : shape2 d (zlen w) (zlen kpts)).
  { destruct (@transpose_shape _ cp (zlen kpts) (zlen w)) as [L H]; [lia|assumption|]. split; [unfold d; rewrite zlen_map2, L; lia|]. intros r I. apply In_zget in I. destruct I as (t & _ & E). unfold d in E. rewrite zget_map2 in E.
    destruct (zget w t); [|discriminate]. destruct (zget (transpose (zlen w) cp) t) as [r'|] eqn:Er; [|discriminate]. inversion E. rewrite zlen_map. apply H. eapply zget_In; eauto. }
  assert (Gd : forall t i, (0 <= t < zlen w)%Z -> (0 <= i < zlen kpts)%Z -> get2 d t i = obind (zget w t) (fun x => obind (zget kpts i) (fun p => Some (fst (at_pt p x) * x)))).
  { intros t i Ht Hi. pose proof (@get2_transpose _ cp (zlen kpts) (zlen w) t i Sc Ht Hi) as T. rewrite Gc in T. unfold get2 in *. unfold d. rewrite zget_map2. destruct (zget w t) as [x|]; [|reflexivity].
    destruct (zget (transpose (zlen w) cp) t) as [r|]; cbn in *; [rewrite zget_map, T; destruct (zget kpts i); reflexivity|]. destruct (zget kpts i); [discriminate|reflexivity]. }
  destruct (@pcolormesh_ok kax w d (zlen w) (zlen kpts) Sd eq_refl La) as (im & E & M). exists im. split; [exact E|]. intros a b v. rewrite M. split.
  - intros (t & i & Ea & Eb & Ev). pose proof (zget_some_range _ _ Ea). pose proof (zget_some_range _ _ Eb). rewrite Gd, Eb in Ev by lia. cbn in Ev. destruct (zget kpts i) as [p|] eqn:Ep; [|discriminate]. cbn in Ev. inversion Ev.
    exists i, p. split; [assumption|]. split; [assumption|]. split; [eapply zget_In; eauto|]. ring.
  - intros (i & p & Ea & Ep & Ib & ->). apply In_zget in Ib. destruct Ib as (t & Ht & Et). pose proof (zget_some_range _ _ Ep). exists t, i. split; [assumption|]. split; [assumption|]. rewrite Gd, Et by lia. cbn. rewrite Ep. cbn. f_equal. ring.
Qed.
Lemma chi_run fig : plot_chi_along_kpath chi w kax kpts = Ok fig ->
  (forall a b v, In (a, b, v) (chi_map fig) <-> exists i p, zget kax i = Some a /\ zget kpts i = Some p /\ In b w /\ v = b * fst (at_pt p b)) /\
  zlen (chi_line fig) = zlen kpts /\ (forall i p, zget kpts i = Some p -> exists a b, zget kax i = Some a /\ zget (chi_line fig) i = Some (a, b) /\ ridge_at p b) /\
  (exists t x0, zget w t = Some x0 /\ nearest 0 w x0 /\ zget w (t + 1) = Some (fst (chi_ylim fig))) /\
  (exists ab, In ab (chi_line fig) /\ snd (chi_ylim fig) = 2 * snd ab) /\ forall ab, In ab (chi_line fig) -> 2 * snd ab <= snd (chi_ylim fig).
Proof.
  unfold plot_chi_along_kpath. destruct (py_get w (argmin (map Rabs w) + 1)) as [wmin|] eqn:E0; [|discriminate]. cbn [bind]. rewrite kpath_vals. cbn [bind]. destruct chi_cells as (im & Eim & Mim). unfold C in *. rewrite Eim. cbn [bind].
  destruct peaks_ok as (pk & wp & E1 & E2 & L & V). unfold C in *. rewrite E1. cbn [bind]. rewrite E2. cbn [bind]. destruct (rmax wp) as [mx|] eqn:Em; [|discriminate]. cbn [bind]. intros E. inversion E. cbn [chi_map chi_line chi_ylim fst snd].
  assert (Gl : forall i, zget (combine kax wp) i = match zget kax i, zget wp i with Some a, Some b => Some (a, b) | _, _ => None end).
  { clear. revert wp. induction kax as [|a l IH]; intros wp i; [now rewrite !zget_nil|]. destruct wp as [|b wp]; cbn [combine]; [rewrite !zget_nil; now destruct (zget (a :: l) i)|]. rewrite !zget_cons. destruct (Z.eqb_spec i 0); [reflexivity|apply IH]. }
  assert (Lc : zlen (combine kax wp) = zlen kpts). { unfold zlen in *. rewrite combine_length. lia. }
  split; [exact Mim|]. split; [exact Lc|]. split.
  { intros i p Ep. destruct (V i p Ep) as (b & Eb & Rb). destruct (@zget_in_range _ kax i) as [a Ea]; [rewrite La; eapply zget_some_range; eauto|]. exists a, b. rewrite Gl, Ea, Eb. auto. }
  split. { destruct (fermi_frequency w Hw) as (x0 & Ex & Mx). eexists. exists x0. split; [exact Ex|]. pose proof (zget_some_range _ _ Ex). split; [split; [eapply zget_In; eauto|]; intros x' I; rewrite !Rminus_0_r; auto|].
    unfold py_get in E0. destruct (Z.ltb_spec (argmin (map Rabs w) + 1) 0); [lia|]. destruct (zget w (argmin (map Rabs w) + 1)); [now inversion E0|discriminate]. }
  apply rmax_ok in Em. destruct Em as [Im Mm]. split.
  { apply In_zget in Im. destruct Im as (i & Hi & Ei). destruct (@zget_in_range _ kax i) as [a Ea]; [lia|]. exists (a, mx). split; [|cbn; ring]. apply (zget_In _ i). now rewrite Gl, Ea, Ei. }
  intros [a b] I. apply In_zget in I. destruct I as (i & _ & Ei). rewrite Gl in Ei. destruct (zget kax i); [|discriminate]. destruct (zget wp i) as [b'|] eqn:Eb; [|discriminate]. inversion Ei. subst. cbn. pose proof (Mm b (zget_In _ _ Eb)). lra.
Qed.
Lemma chi_works t x0 : zget w t = Some x0 -> (forall j x, zget w j = Some x -> j <> t -> Rabs x0 < Rabs x) ->
  if (t + 1 <? zlen w)%Z then exists fig, plot_chi_along_kpath chi w kax kpts = Ok fig else plot_chi_along_kpath chi w kax kpts = Raise IndexError.
Proof.
  intros Ex Mx. assert (Et : argmin (map Rabs w) = t).
  { destruct (fermi_frequency w Hw) as (x & E & M). destruct (Z.eq_dec (argmin (map Rabs w)) t); [assumption|]. pose proof (Mx _ _ E n). pose proof (M x0 (zget_In _ _ Ex)). lra. }
  pose proof (zget_some_range _ _ Ex) as Rt. unfold plot_chi_along_kpath. rewrite Et. destruct (Z.ltb_spec (t + 1) (zlen w)).
  - destruct (@zget_in_range _ w (t + 1)%Z) as [wm Em]; [lia|]. rewrite (py_get_nonneg w (i := (t + 1)%Z) (a := wm)) by (lia || assumption). cbn [bind]. rewrite kpath_vals. cbn [bind]. destruct chi_cells as (im & Eim & Mim). unfold C in *. rewrite Eim. cbn [bind].
    destruct peaks_ok as (pk & wp & E1 & E2 & L & V). unfold C in *. rewrite E1. cbn [bind]. rewrite E2. cbn [bind]. destruct wp as [|b wp]; [rewrite zlen_nil in L; lia|]. cbn. eauto.
  - assert (E : py_get w (t + 1) = Raise IndexError). { unfold py_get. destruct (Z.ltb_spec (t + 1) 0); [lia|]. destruct (zget w (t + 1)) eqn:E; [|reflexivity]. apply zget_some_range in E. lia. } rewrite E. reflexivity.
Qed.
End Chi.
