(** Proofs about Model/FigMaps.v. *)
From Coq Require Import ZArith Reals List Lia Lra.
From Verif Require Import Base.PyBase Base.Arr Base.PyFacts Base.RSum Model.BrillouinZone Model.KPath Model.MaxEnt Model.RealMesh Model.ShownK Model.PathPlot Model.SwkAnalysis Model.FigMaps.
From Verif Require Import Spec.BZSpec Spec.ShownKSpec Spec.SwkSpec Spec.FigMapsSpec Proofs.BrillouinZoneP Proofs.KPathP Proofs.RealMeshP Proofs.ShownKP Proofs.SwkP Proofs.Swk2P Proofs.Swk3P Proofs.VertexBuildP.
Import ListNotations.
Set Implicit Arguments.
Local Open Scope R_scope.

(** * colours *)
Lemma fold_min l : forall a, let m := fold_left Rmin l a in (m = a \/ In m l) /\ m <= a /\ forall x, In x l -> m <= x.
Proof.
  induction l as [|y l IH]; intros a; cbv zeta; [cbn; split; [tauto|]; split; [lra|easy]|]. destruct (IH (Rmin a y)) as (A & B & D). cbn. pose proof (Rmin_l a y). pose proof (Rmin_r a y).
  split. { destruct A as [A|A]; [|tauto]. rewrite A. unfold Rmin. destruct (Rle_dec a y); tauto. } split; [lra|]. intros x [->|I]; [lra|auto].
Qed.
Lemma fold_max l : forall a, let m := fold_left Rmax l a in (m = a \/ In m l) /\ a <= m /\ forall x, In x l -> x <= m.
Proof.
  induction l as [|y l IH]; intros a; cbv zeta; [cbn; split; [tauto|]; split; [lra|easy]|]. destruct (IH (Rmax a y)) as (A & B & D). cbn. pose proof (Rmax_l a y). pose proof (Rmax_r a y).
  split. { destruct A as [A|A]; [|tauto]. rewrite A. unfold Rmax. destruct (Rle_dec a y); tauto. } split; [lra|]. intros x [->|I]; [lra|auto].
Qed.
Lemma rmin_ok l m : rmin l = Ok m -> In m l /\ forall x, In x l -> m <= x.
Proof. destruct l as [|y l]; [discriminate|]. cbn. intros E. inversion E. destruct (fold_min l y) as (A & B & D). split; [intuition|]. intros x [->|I]; auto. Qed.
Lemma rmax_ok l m : rmax l = Ok m -> In m l /\ forall x, In x l -> x <= m.
Proof. destruct l as [|y l]; [discriminate|]. cbn. intros E. inversion E. destruct (fold_max l y) as (A & B & D). split; [intuition|]. intros x [->|I]; auto. Qed.
Lemma in_concat2 A (a : list (list A)) v : In v (concat a) <-> exists i j, get2 a i j = Some v.
Proof.
  rewrite in_concat. split.
  - intros (r & Ir & Iv). apply In_zget in Ir. destruct Ir as (i & _ & Ei). apply In_zget in Iv. destruct Iv as (j & _ & Ej). exists i, j. unfold get2. now rewrite Ei.
  - intros (i & j & E). unfold get2 in E. destruct (zget a i) as [r|] eqn:Er; [|discriminate]. exists r. split; eapply zget_In; eauto.
Qed.
Lemma get2_map A B (f : A -> B) (a : list (list A)) i j : get2 (map (map f) a) i j = option_map f (get2 a i j).
Proof. unfold get2. rewrite zget_map. destruct (zget a i) as [r|]; [|reflexivity]. cbn. now rewrite zget_map. Qed.
Lemma colours_inv a c : colours a = Ok c -> exists lo hi, is_min2 a lo /\ is_max2 a hi /\ c = map (map (fun v => interp3 v lo 0 hi 0 0.5 1)) a.
Proof.
  unfold colours. destruct (rmin (concat a)) as [lo|] eqn:E1; [|discriminate]. destruct (rmax (concat a)) as [hi|] eqn:E2; [|discriminate]. cbn [bind]. intros E. inversion E.
  apply rmin_ok in E1. apply rmax_ok in E2. exists lo, hi. split; [|split; [|reflexivity]]; (split; [apply in_concat2; tauto|]); intros i j v G; [apply E1|apply E2]; apply in_concat2; eauto.
Qed.
Lemma colours_works a : (exists i j v, get2 a i j = Some v) -> exists c, colours a = Ok c.
Proof.
  intros (i & j & v & G). assert (I : In v (concat a)) by (apply in_concat2; eauto). unfold colours. destruct (concat a); [contradiction|]. cbn. eauto.
Qed.
Lemma interp_neg v lo hi : lo <= v <= hi -> v < 0 -> interp3 v lo 0 hi 0 0.5 1 = (1 - v / lo) / 2.
Proof.
  intros H N. unfold interp3. destruct (Rlt_dec hi v); [lra|]. destruct (Rlt_dec v lo); [lra|]. destruct (Rle_dec 0 v); [lra|]. destruct (Req_EM_T lo v); [subst v; unfold Rdiv at 1; unfold Rdiv; rewrite Rinv_r by lra; lra|]. replace 0.5 with (/ 2) by lra. field. lra.
Qed.
Lemma interp_pos v lo hi : lo <= v <= hi -> 0 < v -> interp3 v lo 0 hi 0 0.5 1 = (1 + v / hi) / 2.
Proof.
  intros H N. unfold interp3. destruct (Rlt_dec hi v); [lra|]. destruct (Rlt_dec v lo); [lra|]. destruct (Rle_dec 0 v); [|lra]. destruct (Rle_dec hi v).
  - assert (v = hi) by lra. subst v. unfold Rdiv. rewrite Rinv_r by lra. lra.
  - destruct (Req_EM_T 0 v); [lra|]. replace 0.5 with (/ 2) by lra. field. lra.
Qed.
Lemma interp_zero lo hi : lo <= 0 <= hi -> interp3 0 lo 0 hi 0 0.5 1 = if Rlt_dec 0 hi then / 2 else 1.
Proof.
  intros H. unfold interp3. destruct (Rlt_dec hi 0); [lra|]. destruct (Rlt_dec 0 lo); [lra|]. destruct (Rle_dec 0 0); [|lra]. destruct (Rle_dec hi 0), (Rlt_dec 0 hi); try lra. destruct (Req_EM_T 0 0); lra.
Qed.

(** * maps *)
Lemma half_shift n i : mom n i - PI + half_step n = shifted_mom n i. Proof. reflexivity. Qed.
Lemma zlen_k_shift n : (0 <= n)%Z -> zlen (k_shift n) = n.
Proof. intros H. unfold k_shift, k_axis. rewrite !zlen_map, zlen_arange. lia. Qed.
Lemma k_shift_get n i : (0 <= i < n)%Z -> zget (k_shift n) i = Some (mom n i - PI). Proof. apply zget_k_shift. Qed.
Lemma drawn (d : list (list R)) n1 n2 x y : shape2 d n1 n2 -> (0 < n1)%Z -> (0 < n2)%Z -> zlen x = n1 -> zlen y = n2 ->
  exists p, pcolormesh x y (transpose n2 d) = Ok p /\ forall a b v, In (a, b, v) p <-> exists i j, zget x i = Some a /\ zget y j = Some b /\ get2 d i j = Some v.
Proof.
  intros S H1 H2 Lx Ly. destruct (@pcolormesh_ok x y (transpose n2 d) n2 n1) as (p & E & P); [apply transpose_shape; [lia|assumption]|assumption|assumption|].
  exists p. split; [assumption|]. intros a b v. rewrite P. split.
  - intros (i & j & Ej & Ei & Ev). exists j, i. split; [assumption|]. split; [assumption|]. pose proof (zget_some_range _ _ Ej). pose proof (zget_some_range _ _ Ei). rewrite (@get2_transpose _ d n1 n2) in Ev by (assumption || lia). assumption.
  - intros (i & j & Ei & Ej & Ev). exists j, i. split; [assumption|]. split; [assumption|]. pose proof (zget_some_range _ _ Ej). pose proof (zget_some_range _ _ Ei). rewrite (@get2_transpose _ d n1 n2) by (assumption || lia). assumption.
Qed.
Lemma shifted_drawn (f : R -> R -> R) d n1 n2 nk : periodic2 f -> samples2 f n1 n2 d -> nk = None \/ nk = Some (n1, n2) -> (0 < n1)%Z -> (0 < n2)%Z ->
  exists p, pcolormesh (k_shift n1) (k_shift n2) (transpose n2 (shift_xy_by_pi d nk)) = Ok p /\ shifted_map n1 n2 f p.
Proof.
  intros P S Hn H1 H2. destruct (@drawn (shift_xy_by_pi d nk) n1 n2 (k_shift n1) (k_shift n2)) as (p & E & V); try assumption; [apply shift_shape; apply S|apply zlen_k_shift; lia|apply zlen_k_shift; lia|].
  exists p. split; [assumption|]. intros a b v. rewrite V. split.
  - intros (i & j & Ei & Ej & Ev). pose proof (zget_some_range _ _ Ei) as Ri. pose proof (zget_some_range _ _ Ej) as Rj. rewrite zlen_k_shift in Ri, Rj by lia. rewrite k_shift_get in Ei, Ej by assumption.
    rewrite (shift_val P S Hn Ri Rj) in Ev. inversion Ei. inversion Ej. inversion Ev. exists i, j. rewrite !half_shift. tauto.
  - intros (i & j & Ri & Rj & -> & -> & ->). exists i, j. rewrite !k_shift_get by assumption. rewrite (shift_val P S Hn Ri Rj), !half_shift. tauto.
Qed.
Lemma squeeze_ok A (m : list (list A)) n1 n2 : shape2 m n1 n2 -> (2 <= n1)%Z -> (2 <= n2)%Z -> squeeze2 m = Ok m.
Proof. intros S H1 H2. unfold squeeze2. rewrite (@dim1_shape _ m n1 n2 S) by lia. destruct S as [L _]. rewrite L. destruct (Z.ltb_spec n1 2); [lia|]. destruct (Z.ltb_spec n2 2); [lia|]. reflexivity. Qed.
Lemma squeeze_raise A (m : list (list A)) n1 n2 : shape2 m n1 n2 -> (0 < n1)%Z -> (n1 < 2 \/ n2 < 2)%Z -> squeeze2 m = Raise ValueError.
Proof. intros S H1 H2. unfold squeeze2. rewrite (@dim1_shape _ m n1 n2 S) by lia. destruct S as [L _]. rewrite L. destruct (Z.ltb_spec n1 2), (Z.ltb_spec n2 2); try lia; reflexivity. Qed.
Lemma shape2_map A B (f : A -> B) m n1 n2 : shape2 m n1 n2 -> shape2 (map (map f) m) n1 n2.
Proof. intros [L H]. split; [now rewrite zlen_map|]. intros r I. apply in_map_iff in I. destruct I as (r' & <- & I). rewrite zlen_map. auto. Qed.
Lemma samples2_map A B (h : A -> B) f n1 n2 m : samples2 f n1 n2 m -> samples2 (fun x y => h (f x y)) n1 n2 (map (map h) m).
Proof. intros [S V]. split; [now apply shape2_map|]. intros i j Hi Hj. rewrite get2_map, V by assumption. reflexivity. Qed.
Lemma mom_0 n : mom n 0 = 0. Proof. unfold mom. unfold Rdiv. ring. Qed.
Lemma layer_samples A (g : R -> R -> R -> R -> A) n1 n2 n3 w m t x : samples4 g n1 n2 n3 w m -> (0 < n3)%Z -> zget w t = Some x ->
  exists l, layer m t = Ok l /\ samples2 (fun kx ky => g kx ky 0 x) n1 n2 l.
Proof.
  intros [S V] H3 Ex. pose proof (zget_some_range _ _ Ex) as Rt. destruct (layer_ok S H3 Rt) as (l & E & Sl & G). exists l. split; [assumption|]. split; [assumption|].
  intros i j Hi Hj. rewrite G by assumption. rewrite (V i j 0%Z t x) by (assumption || lia). now rewrite mom_0.
Qed.
Lemma nearest_arg y w : (0 < zlen w)%Z -> exists x, zget w (argmin (map (fun v => Rabs (v - y)) w)) = Some x /\ nearest y w x.
Proof.
  intros H. destruct (@argmin_ok (map (fun v => Rabs (v - y)) w)) as (v & E & M); [now rewrite zlen_map|]. rewrite zget_map in E. destruct (zget w (argmin _)) as [x|] eqn:E0; [|discriminate]. inversion E; subst.
  exists x. split; [reflexivity|]. split; [eapply zget_In; eauto|]. intros x' I. apply In_zget in I. destruct I as (j & _ & Ej). apply (M j). now rewrite zget_map, Ej.
Qed.
Lemma window_values A wi (w : list R) (h : R -> A) : forall l : list A, zlen l = zlen w -> (forall t x, zget w t = Some x -> zget l t = Some (h x)) -> window wi w (l : list A) = map h (between wi w).
Proof.
  induction w as [|x w IH]; intros l L V; [destruct l; reflexivity|]. destruct l as [|a l]; [rewrite zlen_nil, zlen_cons in L; pose proof (zlen_nonneg w); lia|]. rewrite !zlen_cons in L.
  assert (Ea : a = h x) by (specialize (V 0%Z x eq_refl); cbn in V; congruence).
  assert (E : window wi w l = map h (between wi w)). { apply IH; [lia|]. intros t y Hy. pose proof (zget_some_range _ _ Hy). specialize (V (t + 1)%Z y). rewrite !zget_cons in V. destruct (Z.eqb_spec (t + 1) 0); [lia|]. replace (t + 1 - 1)%Z with t in V by ring. auto. }
  cbn. destruct (Rlt_dec x 0); [|exact E]. destruct (Rlt_dec wi x); [|exact E]. cbn. now rewrite E, Ea.
Qed.
Lemma mapM_fn A B (f : A -> res B) (h : A -> B) l : (forall x, In x l -> f x = Ok (h x)) -> mapM f l = Ok (map h l).
Proof. induction l as [|x l IH]; intros H; [reflexivity|]. cbn. rewrite (H x) by now left. cbn. rewrite IH by (intros y I; apply H; now right). reflexivity. Qed.
Lemma fs_ok (g : R -> R -> R -> R -> C) n1 n2 n3 w m w_int w_plot : samples4 g n1 n2 n3 w m -> (0 < n3)%Z -> (0 < zlen w)%Z ->
  exists F l, fs_data w_int w_plot w m = Ok l /\ samples2 F n1 n2 l /\ shown_of w_int w_plot w g F.
Proof.
  intros S H3 Hw. destruct w_int as [wi|].
  - set (F := fun kx ky => (window_mean wi w (fun x => fst (g kx ky 0 x)), window_mean wi w (fun x => snd (g kx ky 0 x)))). exists F.
    set (one := fun s : list C => let y := window wi w s in let x := window wi w w in (trapz (map fst y) x / Rabs wi, trapz (map snd y) x / Rabs wi)).
    destruct S as [[Sh Sl] V].
    assert (E : fs_data (Some wi) w_plot w m = Ok (map (map (fun c => one (hd [] c))) m)).
    { unfold fs_data. apply mapM_fn. intros r Ir. apply mapM_fn. intros c Ic. apply In_zget in Ir. destruct Ir as (i & _ & Ei). apply In_zget in Ic. destruct Ic as (j & Hj & Ej).
      destruct Sh as [L1 Sr]. destruct (Sr r (zget_In _ _ Ei)) as [L2 Sc]. pose proof (Sc c (zget_In _ _ Ej)) as L3. destruct c as [|s c]; [rewrite zlen_nil in L3; lia|]. reflexivity. }
    eexists. split; [exact E|]. split; [|intros kx ky; reflexivity].
    split. { destruct Sh as [L1 Sr]. split; [now rewrite zlen_map|]. intros r I. apply in_map_iff in I. destruct I as (r' & <- & I). rewrite zlen_map. now apply Sr. }
    intros i j Hi Hj. rewrite get2_map. assert (Hc : exists c s, get2 m i j = Some c /\ hd [] c = s /\ zlen s = zlen w /\ forall t x, zget w t = Some x -> zget s t = Some (g (mom n1 i) (mom n2 j) 0 x)).
    { destruct (get4_range (m := m) (a := n1) (b := n2) (c := n3) (d := zlen w) (i := i) (j := j) (l := 0) (t := 0)) as [q Eq]; [split; assumption|assumption|assumption|lia|lia|].
      unfold get4, get3 in Eq. unfold get2. destruct (zget m i) as [r|] eqn:Er; [|discriminate]. cbn in *. unfold get2 in Eq. destruct (zget r j) as [c|] eqn:Ec; [|discriminate]. cbn in *.
      destruct c as [|s c]; [discriminate|]. exists (s :: c), s. split; [reflexivity|]. split; [reflexivity|]. split.
      - apply (Sl i j 0%Z). unfold get3, get2. rewrite Er. cbn. rewrite Ec. reflexivity.
      - intros t x Ex. specialize (V i j 0%Z t x Hi Hj ltac:(lia) Ex). rewrite mom_0 in V. unfold get4, get3, get2 in V. rewrite Er in V. cbn in V. rewrite Ec in V. exact V. }
    destruct Hc as (c & s & Ec & Es & Ls & Vs). rewrite Ec. cbn [option_map]. rewrite Es. unfold one, F. cbv zeta. rewrite (@window_values C wi w (fun x => g (mom n1 i) (mom n2 j) 0 x) s Ls Vs).
    rewrite (@window_values R wi w (fun x => x) w eq_refl) by auto. rewrite map_id, !map_map. unfold window_mean. now rewrite !trapz_function.
  - destruct (nearest_arg w_plot w Hw) as (x & Ex & N). destruct (@layer_samples C g n1 n2 n3 w m _ x S H3 Ex) as (l & El & Sl). exists (fun kx ky => g kx ky 0 x), l. split; [exact El|]. split; [exact Sl|]. cbn. exists x. auto.
Qed.
Lemma shown_periodic w_int w_plot w g F : periodic4 g -> shown_of w_int w_plot w g F -> periodic2 F.
Proof.
  intros P H. destruct w_int as [wi|]; cbn in H.
  - intros x y. rewrite !H. unfold window_mean. split; f_equal; f_equal; apply trapezoid_ext; intros z _; f_equal; apply (P z x y 0).
  - destruct H as (x0 & _ & H). intros x y. rewrite !H. split; apply (P x0 x y 0).
Qed.
Lemma periodic2_map A B (h : A -> B) F : periodic2 F -> periodic2 (fun x y => h (F x y)).
Proof. intros P x y. destruct (P x y) as [E1 E2]. now rewrite E1, E2. Qed.
Lemma re_cinv z : fst (cinv z) = inv_re z. Proof. unfold cinv, inv_re. cbn. f_equal. ring. Qed.

Section Maps.
Variables (g : R -> R -> R -> R -> C) (n1 n2 n3 : Z) (w : list R) (m : arr4 C) (w_int : option R) (w_plot : R).
Hypotheses (Hs : samples4 g n1 n2 n3 w m) (H1 : (2 <= n1)%Z) (H2 : (2 <= n2)%Z) (H3 : (0 < n3)%Z) (Hw : (0 < zlen w)%Z).
Lemma inv_layer : exists x0 l, nearest 0 w x0 /\ layer (map4 cinv m) (argmin (map Rabs w)) = Ok l /\ samples2 (fun kx ky => inv_re (g kx ky 0 x0)) n1 n2 (map (map fst) l).
Proof.
  destruct (fermi_frequency w Hw) as (x0 & E0 & M0). destruct (@layer_samples C (fun x y z v => cinv (g x y z v)) n1 n2 n3 w (map4 cinv m) _ x0 (samples4_map cinv Hs) H3 E0) as (l & El & Sl). exists x0, l. split; [|split; [exact El|]].
  - split; [eapply zget_In; eauto|]. intros x' I. rewrite !Rminus_0_r. auto.
  - destruct (samples2_map fst Sl) as [S V]. split; [exact S|]. intros i j Hi Hj. rewrite V by assumption. now rewrite re_cinv.
Qed.
Lemma fs_shown : periodic4 g -> exists F x0 p, plot_cont_fs n1 n2 w_int w_plot w m = Ok p /\ shown_of w_int w_plot w g F /\ nearest 0 w x0 /\
  shifted_map n1 n2 (fun kx ky => - 1 / PI * snd (F kx ky)) (p_awk p) /\ shifted_map n1 n2 (fun kx ky => fst (F kx ky)) (p_re p) /\ shifted_map n1 n2 (fun kx ky => inv_re (g kx ky 0 x0)) (p_qdp p).
Proof.
  intros P. destruct (@fs_ok g n1 n2 n3 w m w_int w_plot Hs H3 Hw) as (F & l & El & Sl & HF). pose proof (@shown_periodic w_int w_plot w g F P HF) as PF. destruct inv_layer as (x0 & q & N0 & Eq & Sq).
  pose proof (samples2_map (fun g => - 1 / PI * snd g) Sl) as Sa. pose proof (samples2_map fst Sl) as Sb.
  destruct (shifted_drawn (nk := Some (n1, n2)) (periodic2_map (fun g : C => - 1 / PI * snd g) PF) Sa (or_intror eq_refl) ltac:(lia) ltac:(lia)) as (pa & Ea & Ma).
  destruct (shifted_drawn (nk := Some (n1, n2)) (periodic2_map (fst : C -> R) PF) Sb (or_intror eq_refl) ltac:(lia) ltac:(lia)) as (pb & Eb & Mb).
  assert (Pq : periodic2 (fun kx ky => inv_re (g kx ky 0 x0))) by (intros x y; destruct (P x0 x y 0) as (A & B & _); now rewrite A, B).
  destruct (shifted_drawn (nk := Some (n1, n2)) Pq Sq (or_intror eq_refl) ltac:(lia) ltac:(lia)) as (pc & Ec & Mc).
  exists F, x0, (FsFig pa pb pc). split; [|tauto]. unfold plot_cont_fs. rewrite El. cbn [bind]. cbv zeta. rewrite (squeeze_ok (shift_shape (Some (n1, n2)) (proj1 Sa)) H1 H2). cbn [bind].
  rewrite (squeeze_ok (shift_shape (Some (n1, n2)) (proj1 Sb)) H1 H2). cbn [bind]. rewrite Eq. cbn [bind]. rewrite (squeeze_ok (shift_shape (Some (n1, n2)) (proj1 Sq)) H1 H2). cbn [bind].
  unfold C in *. rewrite Ea. cbn [bind]. rewrite Eb. cbn [bind]. rewrite Ec. reflexivity.
Qed.
End Maps.
