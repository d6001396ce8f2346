(** Proofs about Model/SwkAnalysis.v: the panel with the map and the Fermi line, and the cuts. *)
From Coq Require Import ZArith Reals List Lia Lra Sorted.
From Verif Require Import Base.PyBase Base.Arr Base.PyFacts Base.RSum Model.BrillouinZone Model.KPath Model.MaxEnt Model.RealMesh Model.LocalCont Model.ShownK Model.SwkAnalysis.
From Verif Require Import Spec.BZSpec Spec.ShownKSpec Spec.SwkSpec Proofs.BrillouinZoneP Proofs.KPathP Proofs.RealMeshP Proofs.ShownKP Proofs.SwkP Proofs.Swk2P Proofs.VertexBuildP.
Import ListNotations.
Set Implicit Arguments.
Local Open Scope R_scope.

(** Shifted arrays *)
Lemma shift3_val A (f : R -> R -> R -> A) n1 n2 n3 m : periodic3 f -> samples3 f n1 n2 n3 m -> forall i j l, (0 <= i < n1)%Z -> (0 <= j < n2)%Z -> (0 <= l < n3)%Z ->
  get3 (shift_mat_by_pi m) i j l = Some (f (shifted_mom n1 i) (shifted_mom n2 j) (shifted_mom n3 l)).
Proof.
  intros P [S V] i j l Hi Hj Hl. pose proof (@shift_pi_get _ m n1 n2 n3 S i j l) as E. unfold at3 in E. rewrite E by (repeat split; lia). rewrite V by (apply Z.mod_pos_bound; lia).
  destruct (@rolled_mom n1 i ltac:(lia)) as [k1 E1]. destruct (@rolled_mom n2 j ltac:(lia)) as [k2 E2]. destruct (@rolled_mom n3 l ltac:(lia)) as [k3 E3]. rewrite E1, E2, E3. f_equal.
  rewrite (period_int (fun x => f x _ _)) by (intros; apply P). rewrite (period_int (fun x => f _ x _)) by (intros; apply P). rewrite (period_int (fun x => f _ _ x)) by (intros; apply P). reflexivity.
Qed.
Lemma shift4_shape A (m : arr4 A) a b c d : shape4 m a b c d -> (0 < a)%Z -> (0 < b)%Z -> (0 < c)%Z -> shape4 (shift_mat_by_pi m) a b c d.
Proof.
  intros [S H] Ha Hb Hc. assert (S' : shape3 (shift_mat_by_pi m) a b c). { rewrite (shift_pi_is_ind S). now apply BrillouinZoneP.shift_shape. }
  split; [assumption|]. intros i j l s E. pose proof (get3_inv _ _ _ S' E) as R. pose proof (@shift_pi_get _ m a b c S i j l) as G. unfold at3 in G. rewrite G in E by (repeat split; lia). eauto.
Qed.
Lemma shift4_val A (f : R -> R -> R -> R -> A) n1 n2 n3 w m : periodic4 f -> samples4 f n1 n2 n3 w m -> (0 < n1)%Z -> (0 < n2)%Z -> (0 < n3)%Z ->
  shape4 (shift_mat_by_pi m) n1 n2 n3 (zlen w) /\
  forall i j l t x, (0 <= i < n1)%Z -> (0 <= j < n2)%Z -> (0 <= l < n3)%Z -> zget w t = Some x ->
    get4 (shift_mat_by_pi m) i j l t = Some (f (shifted_mom n1 i) (shifted_mom n2 j) (shifted_mom n3 l) x).
Proof.
  intros P [S V] H1 H2 H3. split; [now apply shift4_shape|]. intros i j l t x Hi Hj Hl Hx. destruct S as [S H]. pose proof (@shift_pi_get _ m n1 n2 n3 S i j l) as E. unfold at3 in E. unfold get4. rewrite E by (repeat split; lia).
  change (get4 m ((i - n1 / 2) mod n1) ((j - n2 / 2) mod n2) ((l - n3 / 2) mod n3) t = Some (f (shifted_mom n1 i) (shifted_mom n2 j) (shifted_mom n3 l) x)).
  rewrite (V _ _ _ _ x) by (assumption || (apply Z.mod_pos_bound; lia)).
  destruct (@rolled_mom n1 i ltac:(lia)) as [k1 E1]. destruct (@rolled_mom n2 j ltac:(lia)) as [k2 E2]. destruct (@rolled_mom n3 l ltac:(lia)) as [k3 E3]. rewrite E1, E2, E3. f_equal. pose proof (P x) as Px.
  rewrite (period_int (fun y => f y _ _ x)) by (intros; apply Px). rewrite (period_int (fun y => f _ y _ x)) by (intros; apply Px). rewrite (period_int (fun y => f _ _ y x)) by (intros; apply Px). reflexivity.
Qed.

(** The axis *)
Lemma axis_get n : (0 <= n)%Z -> exists l, linspace (- PI) PI n = Ok l /\ zlen l = n /\ forall i, (0 <= i < n)%Z -> zget l i = Some (shown_at n i).
Proof.
  intros H. rewrite linspace_ok by assumption. eexists. split; [reflexivity|]. split; [rewrite zlen_map, zlen_arange; lia|]. intros i Hi. rewrite zget_map, zget_arange by lia. cbn. f_equal. unfold shown_at. unfold Rdiv. replace (PI - - PI) with (2 * PI) by ring. ring.
Qed.
Lemma axis_wrong n i : (2 <= n)%Z -> (0 <= i < n)%Z -> (shown_at n i = shifted_mom n i <-> (if Z.even n then i = 0 else 2 * i = n - 1)%Z).
Proof.
  intros Hn Hi. pose proof PI_RGT_0 as Hp. assert (N : 0 < IZR n) by (apply IZR_lt; lia). assert (N1 : 0 < IZR n - 1) by (rewrite <- minus_IZR; apply IZR_lt; lia).
  unfold shown_at, shifted_mom, mom. rewrite minus_IZR.
  assert (D : - PI + 2 * PI * IZR i / (IZR n - 1) - (2 * PI * IZR i / IZR n - PI) = PI * (2 * IZR i) / (IZR n * (IZR n - 1))) by (field; lra).
  set (q := PI * (2 * IZR i) / (IZR n * (IZR n - 1))) in *. destruct (Z.even n).
  - split.
    + intros E. assert (Q : q = 0) by lra. assert (Z1 : q * (IZR n * (IZR n - 1)) = PI * (2 * IZR i)) by (unfold q; field; split; lra). rewrite Q in Z1. assert (IZR i = 0) by nra. now apply eq_IZR.
    + intros ->. assert (q = 0) by (unfold q, Rdiv; ring). lra.
  - split.
    + intros E. assert (Q : q = PI / IZR n) by lra. assert (Z1 : q * (IZR n * (IZR n - 1)) = PI * (2 * IZR i)) by (unfold q; field; split; lra).
      rewrite Q in Z1. assert (Z2 : PI / IZR n * (IZR n * (IZR n - 1)) = PI * (IZR n - 1)) by (field; lra). assert (E2 : IZR (2 * i) = IZR (n - 1)). { rewrite mult_IZR, minus_IZR. apply Rmult_eq_reg_l with PI; lra. } now apply eq_IZR.
    + intros E. assert (E2 : 2 * IZR i = IZR n - 1). { apply (f_equal IZR) in E. rewrite mult_IZR, minus_IZR in E. exact E. }
      assert (q = PI / IZR n). { unfold q. rewrite E2. field. split; lra. } lra.
Qed.

(** Layers *)
Lemma layer_ok A (m : arr4 A) a b c d t : shape4 m a b c d -> (0 < c)%Z -> (0 <= t < d)%Z ->
  exists g, layer m t = Ok g /\ shape2 g a b /\ forall i j, (0 <= i < a)%Z -> (0 <= j < b)%Z -> get2 g i j = get4 m i j 0 t.
Proof.
  intros S Hc Ht. pose proof S as [[L1 H1] H4]. unfold layer.
  assert (R : forall i r, zget m i = Some r -> exists q, mapM (fun c => let! s := py_get c 0 in py_get s t) r = Ok q /\ (zlen q = b /\ forall j, (0 <= j < b)%Z -> zget q j = get4 m i j 0 t)).
  { intros i r Er. destruct (H1 r (zget_In _ _ Er)) as [L2 H2].
    destruct (@mapM_total _ _ (fun c => let! s := py_get c 0 in py_get s t) (fun j x => get4 m i j 0 t = Some x) r) as (q & E & Lq & V).
    { intros j cc Ec. pose proof (H2 cc (zget_In _ _ Ec)) as L3. destruct (@py_get_total _ cc 0 ltac:(lia)) as (s & Es & Gs). rewrite Es. cbn [bind].
      assert (E3 : get3 m i j 0 = Some s) by (unfold get3, get2; rewrite Er; cbn; rewrite Ec; exact Gs). pose proof (H4 _ _ _ _ E3) as L4.
      destruct (@py_get_total _ s t ltac:(lia)) as (x & Ex & Gx). exists x. split; [assumption|]. unfold get4. rewrite E3. exact Gx. }
    exists q. split; [assumption|]. split; [lia|]. intros j Hj. destruct (@zget_in_range _ r j ltac:(lia)) as [cc Ec]. destruct (V j cc Ec) as (x & Ex & _ & Px). now rewrite Ex, Px. }
  destruct (@mapM_total _ _ _ (fun i q => zlen q = b /\ forall j, (0 <= j < b)%Z -> zget q j = get4 m i j 0 t) m R) as (g & E & Lg & V). exists g. split; [assumption|]. split.
  - split; [lia|]. intros r I. apply In_zget in I. destruct I as (i & Hi & Ei). destruct (@zget_in_range _ m i ltac:(lia)) as [r0 Er]. destruct (V i r0 Er) as (q & Eq & _ & Lq & _). rewrite Ei in Eq. now inversion Eq.
  - intros i j Hi Hj. destruct (@zget_in_range _ m i ltac:(lia)) as [r0 Er]. destruct (V i r0 Er) as (q & Eq & _ & _ & Vq). unfold get2. rewrite Eq. cbn. now apply Vq.
Qed.

(** [pcolormesh] *)
Lemma zget_in_iff A (l : list A) x : In x l <-> exists i, (0 <= i < zlen l)%Z /\ zget l i = Some x.
Proof. split; [apply In_zget|]. intros (i & _ & E). eapply zget_In; eauto. Qed.
Lemma pcolormesh_ok x y data n1 n2 : shape2 data n1 n2 -> zlen y = n1 -> zlen x = n2 ->
  exists p, pcolormesh x y data = Ok p /\ forall a b v, In (a, b, v) p <-> exists i j, zget x j = Some a /\ zget y i = Some b /\ get2 data i j = Some v.
Proof.
  intros S Ly Lx. unfold pcolormesh. assert (Sb : shape2b data (zlen y) (zlen x) = true).
  { rewrite Ly, Lx. destruct S as [L H]. unfold shape2b. apply andb_true_iff. split; [now apply Z.eqb_eq|]. apply forallb_forall. intros r I. apply Z.eqb_eq. auto. }
  rewrite Sb. cbn [negb]. eexists. split; [reflexivity|]. intros a b v. rewrite in_concat. split.
  - intros (row & I & Iv). apply zget_in_iff in I. destruct I as (i & _ & E). rewrite zget_map2 in E. destruct (zget y i) as [yi|] eqn:Ey; [|discriminate]. destruct (zget data i) as [r|] eqn:Er; [|discriminate]. inversion E. subst row. clear E.
    apply zget_in_iff in Iv. destruct Iv as (j & _ & E). rewrite zget_map2 in E. destruct (zget x j) as [xj|] eqn:Ex; [|discriminate]. destruct (zget r j) as [v'|] eqn:Ev; [|discriminate]. inversion E. subst.
    exists i, j. unfold get2. rewrite Er. cbn. tauto.
  - intros (i & j & Ex & Ey & Ev). unfold get2 in Ev. destruct (zget data i) as [r|] eqn:Er; [|discriminate]. cbn in Ev. exists (map2 (fun xi v => (xi, b, v)) x r). split.
    + apply zget_in_iff. exists i. rewrite zget_map2, Ey, Er. split; [|reflexivity]. rewrite zlen_map2. pose proof (zget_some_range _ _ Ey). pose proof (zget_some_range _ _ Er). lia.
    + apply zget_in_iff. exists j. rewrite zget_map2, Ex, Ev. split; [|reflexivity]. rewrite zlen_map2. pose proof (zget_some_range _ _ Ex). pose proof (zget_some_range _ _ Ev). lia.
Qed.

(** The frequency that is shown *)
Lemma argmin_least l : forall best ib i, let k := argmin_from best ib i l in
  (k = ib /\ forall j x, zget l j = Some x -> best <= x) \/ (exists v, zget l (k - i) = Some v /\ v <= best /\ forall j x, zget l j = Some x -> v <= x).
Proof.
  induction l as [|y l IH]; intros best ib i; cbn [argmin_from]; cbv zeta.
  - left. split; [reflexivity|]. intros j x H. now rewrite zget_nil in H.
  - destruct (Rlt_dec y best) as [L|L].
    + destruct (IH y i (i + 1)%Z) as [[E M]|(v & Ev & Lv & M)].
      * right. exists y. rewrite E. replace (i - i)%Z with 0%Z by ring. split; [reflexivity|]. split; [lra|]. intros j x Hx. rewrite zget_cons in Hx. destruct (Z.eqb_spec j 0); [inversion Hx; lra|]. eauto.
      * right. exists v. pose proof (zget_some_range _ _ Ev). split. { rewrite zget_cons. destruct (Z.eqb_spec (argmin_from y i (i + 1) l - i) 0); [lia|]. now replace (argmin_from y i (i + 1) l - i - 1)%Z with (argmin_from y i (i + 1) l - (i + 1))%Z by ring. }
        split; [lra|]. intros j x Hx. rewrite zget_cons in Hx. destruct (Z.eqb_spec j 0); [inversion Hx; lra|]. eauto.
    + destruct (IH best ib (i + 1)%Z) as [[E M]|(v & Ev & Lv & M)].
      * left. split; [assumption|]. intros j x Hx. rewrite zget_cons in Hx. destruct (Z.eqb_spec j 0); [inversion Hx; lra|]. eauto.
      * right. exists v. pose proof (zget_some_range _ _ Ev). split. { rewrite zget_cons. destruct (Z.eqb_spec (argmin_from best ib (i + 1) l - i) 0); [lia|]. now replace (argmin_from best ib (i + 1) l - i - 1)%Z with (argmin_from best ib (i + 1) l - (i + 1))%Z by ring. }
        split; [assumption|]. intros j x Hx. rewrite zget_cons in Hx. destruct (Z.eqb_spec j 0); [inversion Hx; lra|]. eauto.
Qed.
Lemma argmin_ok l : (0 < zlen l)%Z -> exists v, zget l (argmin l) = Some v /\ forall j x, zget l j = Some x -> v <= x.
Proof.
  destruct l as [|y l]; [rewrite zlen_nil; lia|]. intros _. unfold argmin. destruct (argmin_least l y 0%Z 1%Z) as [[E M]|(v & Ev & Lv & M)].
  - exists y. rewrite E. split; [reflexivity|]. intros j x Hx. rewrite zget_cons in Hx. destruct (Z.eqb_spec j 0); [inversion Hx; lra|]. eauto.
  - exists v. pose proof (zget_some_range _ _ Ev). split. { rewrite zget_cons. destruct (Z.eqb_spec (argmin_from y 0 1 l) 0); [lia|]. assumption. }
    intros j x Hx. rewrite zget_cons in Hx. destruct (Z.eqb_spec j 0); [inversion Hx; lra|]. eauto.
Qed.
Lemma fermi_frequency w : (0 < zlen w)%Z -> exists w0, zget w (argmin (map Rabs w)) = Some w0 /\ forall x, In x w -> Rabs w0 <= Rabs x.
Proof.
  intros H. destruct (@argmin_ok (map Rabs w)) as (v & E & M); [now rewrite zlen_map|]. rewrite zget_map in E. destruct (zget w (argmin (map Rabs w))) as [w0|] eqn:E0; [|discriminate]. inversion E; subst.
  exists w0. split; [reflexivity|]. intros x I. apply In_zget in I. destruct I as (j & _ & Ej). apply (M j). now rewrite zget_map, Ej.
Qed.

(** The panel *)
Lemma plane_in f n1 n2 n3 i j : (0 <= i < n1)%Z -> (0 <= j < n2)%Z -> plane f n1 n2 n3 i j = Some (f (shifted_mom n1 i) (shifted_mom n2 j) (shifted_mom n3 0)).
Proof. intros Hi Hj. unfold plane. destruct (Z.leb_spec 0 i); [|lia]. destruct (Z.ltb_spec i n1); [|lia]. destruct (Z.leb_spec 0 j); [|lia]. destruct (Z.ltb_spec j n2); [|lia]. reflexivity. Qed.
Lemma plane_inv f n1 n2 n3 i j a : plane f n1 n2 n3 i j = Some a -> (0 <= i < n1)%Z /\ (0 <= j < n2)%Z /\ a = f (shifted_mom n1 i) (shifted_mom n2 j) (shifted_mom n3 0).
Proof. unfold plane. destruct (Z.leb_spec 0 i), (Z.ltb_spec i n1), (Z.leb_spec 0 j), (Z.ltb_spec j n2); cbn; intros E; try discriminate. inversion E. repeat split; lia || reflexivity. Qed.
Section Contour.
Variable contour : list (list R) -> list (list (R * R)).
Hypothesis contour_ok : draws_zero_lines contour.
Variables (g : R -> R -> R -> R -> C) (n1 n2 n3 : Z) (w : list R) (G : arr4 C).
Hypotheses (Hp : periodic4 g) (Hs : samples4 g n1 n2 n3 w G) (H1 : (2 <= n1)%Z) (H2 : (2 <= n2)%Z) (H3 : (0 < n3)%Z) (Hw : (0 < zlen w)%Z).
Lemma g0_ok : exists w0 g0 l, zget w (argmin (map Rabs w)) = Some w0 /\ (forall x, In x w -> Rabs w0 <= Rabs x) /\
  layer (shift_mat_by_pi G) (argmin (map Rabs w)) = Ok g0 /\ shape2 g0 n1 n2 /\
  (forall i j, (0 <= i < n1)%Z -> (0 <= j < n2)%Z -> get2 g0 i j = Some (g (shifted_mom n1 i) (shifted_mom n2 j) (shifted_mom n3 0) w0)) /\
  find_zeros contour g0 = Ok (map (fun v => (py_int (fst v), py_int (snd v))) l) /\ is_zero_line (plane (fun kx ky kz => fst (g kx ky kz w0)) n1 n2 n3) l.
Proof.
  destruct (@fermi_frequency w Hw) as (w0 & E0 & M). destruct (@shift4_val _ g n1 n2 n3 w G Hp Hs) as [Sh V]; [lia|lia|lia|]. pose proof (zget_some_range _ _ E0) as R0.
  destruct (@layer_ok _ _ n1 n2 n3 (zlen w) (argmin (map Rabs w)) Sh H3 R0) as (g0 & El & S0 & V0).
  assert (VV : forall i j, (0 <= i < n1)%Z -> (0 <= j < n2)%Z -> get2 g0 i j = Some (g (shifted_mom n1 i) (shifted_mom n2 j) (shifted_mom n3 0) w0)).
  { intros i j Hi Hj. rewrite V0 by assumption. apply V; lia || assumption. }
  destruct (@find_zeros_ok contour g0 n1 n2 contour_ok S0 H1 H2) as (l & Ez & Zl). exists w0, g0, l. repeat (split; [assumption|]).
  apply (@zero_line_ext (re_at g0)); [|assumption]. intros i j. unfold re_at. destruct (get2 g0 i j) as [z|] eqn:E.
  - pose proof (get2_inv _ _ S0 E) as [Ri Rj]. rewrite VV in E by assumption. inversion E. subst z. rewrite plane_in by assumption. reflexivity.
  - cbn. destruct (plane _ n1 n2 n3 i j) as [a|] eqn:Ep; [|reflexivity]. destruct (plane_inv _ _ _ _ _ _ Ep) as (Ri & Rj & _). rewrite VV in E by assumption. discriminate.
Qed.
Lemma quasi_entries t i j l x : (0 <= i < n1)%Z -> (0 <= j < n2)%Z -> (0 <= l < n3)%Z -> zget w t = Some x ->
  get4 (get_dqp_bw (map4 (fun z => fst (cinv z)) (shift_mat_by_pi G))) i j l t =
  Some (if Rlt_dec (fst (cinv (g (shifted_mom n1 i) (shifted_mom n2 j) (shifted_mom n3 l) x))) 0 then 0 else 1).
Proof.
  intros Hi Hj Hl Hx. destruct (@shift4_val _ g n1 n2 n3 w G Hp Hs) as [Sh V]; [lia|lia|lia|]. unfold get_dqp_bw. rewrite !get4_map. unfold C in *. rewrite (V i j l t x) by assumption. reflexivity.
Qed.
Lemma panel_content p : n1 = n2 -> main_panel contour n1 w G = Ok p -> exists w0, In w0 w /\ (forall x, In x w -> Rabs w0 <= Rabs x) /\
  (forall a b v, In (a, b, v) (shown_map p) <-> exists i j, (0 <= i < n1)%Z /\ (0 <= j < n1)%Z /\ a = shown_at n1 j /\ b = shown_at n1 i /\
     v = - 1 / PI * snd (g (shifted_mom n1 i) (shifted_mom n1 j) (shifted_mom n3 0) w0)) /\
  (forall a b, In (a, b) (fermi_points p) -> exists i j, a = shown_at n1 i /\ b = shown_at n1 j /\ sign_change_up (plane (fun kx ky kz => fst (g kx ky kz w0)) n1 n1 n3) i j) /\
  quasi p = get_dqp_bw (map4 (fun z => fst (cinv z)) (shift_mat_by_pi G)).
Proof.
  intros En E. destruct g0_ok as (w0 & g0 & l & Ew & M & El & S0 & V0 & Ez & Zl). subst n2. exists w0. split; [eapply zget_In; eauto|]. split; [assumption|].
  unfold main_panel in E. destruct (@axis_get n1) as (ax & Ea & La & Va); [lia|]. rewrite Ea in E. cbn [bind] in E. rewrite El in E. cbn [bind] in E. rewrite Ez in E. cbn [bind] in E.
  set (fs := map (fun v => (py_int (fst v), py_int (snd v))) l) in *.
  assert (Sm : shape2 (map (map (fun z : C => - 1 / PI * snd z)) g0) n1 n1) by now apply shape2_map.
  destruct (@pcolormesh_ok ax ax _ n1 n1 Sm La La) as (im & Ei & Pi).
  destruct fs as [|f0 fs'] eqn:Ef; [discriminate|]. rewrite <- Ef in E. destruct (mapM _ fs) as [kf|] eqn:Ek; [|discriminate]. cbn [bind] in E. unfold C in *. rewrite Ei in E. cbn [bind] in E. inversion E; subst p; cbn [shown_map fermi_points quasi]. clear E.
  split; [|split; [|reflexivity]].
  - intros a b v. rewrite Pi. split.
    + intros (i & j & Ex & Ey & Ev). pose proof (zget_some_range _ _ Ex) as Rj. pose proof (zget_some_range _ _ Ey) as Ri. rewrite La in *. exists i, j. split; [assumption|]. split; [assumption|].
      rewrite Va in Ex, Ey by assumption. inversion Ex. inversion Ey. split; [reflexivity|]. split; [reflexivity|]. unfold get2 in Ev. rewrite zget_map in Ev. specialize (V0 i j Ri Rj). unfold get2 in V0.
      destruct (zget g0 i) as [r|]; [|discriminate]. cbn in *. rewrite zget_map in Ev. unfold C in *. rewrite V0 in Ev. cbn in Ev. now inversion Ev.
    + intros (i & j & Ri & Rj & -> & -> & ->). exists i, j. rewrite !Va by assumption. split; [reflexivity|]. split; [reflexivity|]. specialize (V0 i j Ri Rj). unfold get2 in *. rewrite zget_map.
      destruct (zget g0 i) as [r|]; [|discriminate]. cbn in *. rewrite zget_map. unfold C in *. rewrite V0. reflexivity.
  - intros a b I. apply In_zget in I. destruct I as (q & Hq & Eq). destruct (mapM_zget _ _ Ek) as [Lk Gk]. destruct (@zget_in_range _ fs q) as [pq Epq]; [lia|]. destruct (Gk q pq Epq) as (y & Ey & Fy). rewrite Eq in Ey. inversion Ey; subst y.
    unfold fs in Epq. rewrite zget_map in Epq. destruct (zget l q) as [[vx vy]|] eqn:Elq; [|discriminate]. inversion Epq; subst pq. cbn [fst snd] in Fy.
    assert (Iv : In (vx, vy) l) by (eapply zget_In; eauto). destruct Zl as [Z1 _]. pose proof (trunc_sign (v := plane (fun kx ky kz => fst (g kx ky kz w0)) n1 n1 n3)) as T.
    assert (Sc : sign_change_up (plane (fun kx ky kz => fst (g kx ky kz w0)) n1 n1 n3) (py_int vx) (py_int vy)).
    { apply T; [|now apply Z1]. intros i j c Ec. destruct (plane_inv _ _ _ _ _ _ Ec). lia. }
    exists (py_int vx), (py_int vy). pose proof Sc as (c & Ec & _). destruct (plane_inv _ _ _ _ _ _ Ec) as (Ri & Rj & _).
    rewrite (py_get_nonneg ax (i := py_int vx) (a := shown_at n1 (py_int vx))) in Fy by (lia || now apply Va). cbn [bind] in Fy. rewrite (py_get_nonneg ax (i := py_int vy) (a := shown_at n1 (py_int vy))) in Fy by (lia || now apply Va). cbn [bind] in Fy.
    inversion Fy. tauto.
Qed.
Lemma panel_works : n1 = n2 -> (forall w0, In w0 w -> (forall x, In x w -> Rabs w0 <= Rabs x) -> exists i j a b, plane (fun kx ky kz => fst (g kx ky kz w0)) n1 n2 n3 i j = Some a /\
    (plane (fun kx ky kz => fst (g kx ky kz w0)) n1 n2 n3 (i + 1) j = Some b \/ plane (fun kx ky kz => fst (g kx ky kz w0)) n1 n2 n3 i (j + 1) = Some b) /\ a * b < 0) ->
  exists p, main_panel contour n1 w G = Ok p.
Proof.
  intros En C0. destruct g0_ok as (w0 & g0 & l & Ew & M & El & S0 & V0 & Ez & Zl). destruct (C0 w0) as (i & j & a & b & Ea & Eb & Hab); [eapply zget_In; eauto|assumption|]. clear C0. subst n2.
  unfold main_panel. destruct (@axis_get n1) as (ax & Eax & La & Va); [lia|]. rewrite Eax. cbn [bind]. rewrite El. cbn [bind]. rewrite Ez. cbn [bind].
  assert (Sm : shape2 (map (map (fun z : C => - 1 / PI * snd z)) g0) n1 n1) by now apply shape2_map. destruct (@pcolormesh_ok ax ax _ n1 n1 Sm La La) as (im & Ei & Pi).
  set (fs := map (fun v => (py_int (fst v), py_int (snd v))) l). assert (NE : l <> []).
  { destruct Zl as [_ Z2]. destruct (Z2 i j a b Ea Hab) as [Zx Zy]. destruct Eb as [Eb|Eb]; [destruct (Zx Eb) as (t & _ & I)|destruct (Zy Eb) as (t & _ & I)]; intros ->; destruct I. }
  assert (K : exists kf, mapM (fun p => let! a := py_get ax (fst p) in let! b := py_get ax (snd p) in Ok (a, b)) fs = Ok kf).
  { apply mapM_build. intros pq I. apply in_map_iff in I. destruct I as ([vx vy] & <- & Iv). destruct Zl as [Z1 _].
    assert (Sc : sign_change_up (plane (fun kx ky kz => fst (g kx ky kz w0)) n1 n1 n3) (py_int vx) (py_int vy)).
    { apply trunc_sign; [|now apply Z1]. intros i' j' c Ec. destruct (plane_inv _ _ _ _ _ _ Ec). lia. }
    destruct Sc as (c & Ec & _). destruct (plane_inv _ _ _ _ _ _ Ec) as (Ri & Rj & _). cbn [fst snd].
    rewrite (py_get_nonneg ax (i := py_int vx) (a := shown_at n1 (py_int vx))) by (lia || now apply Va). cbn [bind]. rewrite (py_get_nonneg ax (i := py_int vy) (a := shown_at n1 (py_int vy))) by (lia || now apply Va). cbn [bind]. eauto. }
  destruct K as [kf Ek]. destruct fs as [|f0 fs'] eqn:Ef; [unfold fs in Ef; destruct l; [contradiction|discriminate]|]. rewrite Ek. cbn [bind]. unfold C in *. rewrite Ei. cbn [bind]. eauto.
Qed.
Lemma panel_no_crossing : (forall w0 i j a, In w0 w -> (forall x, In x w -> Rabs w0 <= Rabs x) -> plane (fun kx ky kz => fst (g kx ky kz w0)) n1 n2 n3 i j = Some a -> 0 < a) ->
  main_panel contour n1 w G = Raise IndexError.
Proof.
  intros C0. destruct g0_ok as (w0 & g0 & l & Ew & M & El & S0 & V0 & Ez & Zl). unfold main_panel. destruct (@axis_get n1) as (ax & Eax & La & Va); [lia|]. rewrite Eax. cbn [bind]. rewrite El. cbn [bind]. rewrite Ez. cbn [bind].
  destruct l as [|[x y] l]; [reflexivity|]. exfalso. destruct Zl as [Z1 _]. destruct (Z1 x y (or_introl eq_refl)) as (i & j & t & a & b & Ht & Ea & Eab & Eb).
  assert (Pa : 0 < a) by (eapply (C0 w0); eauto; eapply zget_In; eauto). assert (Pb : 0 < b). { destruct Eb as [(Eb & _)|(Eb & _)]; eapply (C0 w0); eauto; eapply zget_In; eauto. }
  assert (0 <= (1 - t) * a) by (apply Rmult_le_pos; lra). assert (0 <= t * b) by (apply Rmult_le_pos; lra). destruct (Rle_dec t (1 / 2)); [assert (0 < (1 - t) * a) by (apply Rmult_lt_0_compat; lra); lra|assert (0 < t * b) by (apply Rmult_lt_0_compat; lra); lra].
Qed.
Lemma panel_rectangular : n1 <> n2 -> exists e, main_panel contour n1 w G = Raise e.
Proof.
  intros N. destruct g0_ok as (w0 & g0 & l & Ew & M & El & S0 & V0 & Ez & Zl). unfold main_panel. destruct (@axis_get n1) as (ax & Eax & La & Va); [lia|]. rewrite Eax. cbn [bind]. rewrite El. cbn [bind]. rewrite Ez. cbn [bind].
  set (fs := map _ l). destruct fs as [|f0 fs0] eqn:Ef; [eexists; reflexivity|]. match goal with |- context[mapM ?F (f0 :: fs0)] => destruct (mapM F (f0 :: fs0)) as [kf|e] | |- context[mapM ?F fs] => destruct (mapM F fs) as [kf|e] end; [|eexists; reflexivity]. cbn [bind]. unfold pcolormesh.
  assert (F : shape2b (map (map (fun z : C => - 1 / PI * snd z)) g0) (zlen ax) (zlen ax) = false).
  { destruct (shape2b _ _ _) eqn:E; [|reflexivity]. exfalso. apply N. apply shape2b_ok in E. destruct E as [_ E]. destruct S0 as [L0 R0]. destruct g0 as [|r g0]; [rewrite zlen_nil in L0; lia|].
    specialize (E _ (or_introl eq_refl)). rewrite zlen_map in E. rewrite La in E. rewrite <- E. apply R0. now left. }
  unfold C in *. rewrite F. cbn. eauto.
Qed.
End Contour.

(** The cuts *)
Lemma cut_ok (e : R -> R -> R -> R) (g : R -> R -> R -> R -> C) n1 n2 n3 w ek G mu_lda kpts : periodic3 e -> periodic4 g -> samples3 e n1 n2 n3 ek -> samples4 g n1 n2 n3 w G -> (0 < n3)%Z ->
  (forall p, In p kpts -> (0 <= fst (fst p) < n1)%Z /\ (0 <= snd (fst p) < n2)%Z) ->
  path_cut G ek mu_lda kpts = Ok (map (fun p => let kx := shifted_mom n1 (fst (fst p)) in let ky := shifted_mom n2 (snd (fst p)) in let kz := shifted_mom n3 0 in
    (map (fun x => - 1 / PI * snd (g kx ky kz x)) w, e kx ky kz - mu_lda)) kpts).
Proof.
  intros Pe Pg He Hg H3 R. unfold path_cut. apply PyFacts.mapM_total. intros [[ikx iky] ikz] I. destruct (R _ I) as [Rx Ry]. cbn [fst snd] in *.
  destruct (@shift4_val _ g n1 n2 n3 w G Pg Hg) as [[S H] V]; [lia|lia|lia|]. pose proof (@shift3_val _ e n1 n2 n3 ek Pe He ikx iky 0%Z Rx Ry ltac:(lia)) as Ve.
  destruct (@get3_range _ _ n1 n2 n3 ikx iky 0%Z S Rx Ry ltac:(lia)) as [s Es]. pose proof Es as Es'. unfold get3, get2 in Es'. destruct (zget (shift_mat_by_pi G) ikx) as [a|] eqn:Ea; [|discriminate]. cbn in Es'. destruct (zget a iky) as [b|] eqn:Eb; [|discriminate]. cbn in Es'.
  unfold get3, get2 in Ve. destruct (zget (shift_mat_by_pi ek) ikx) as [a'|] eqn:Ea'; [|discriminate]. cbn in Ve. destruct (zget a' iky) as [b'|] eqn:Eb'; [|discriminate]. cbn in Ve.
  rewrite (py_get_nonneg (shift_mat_by_pi G) (i := ikx) (a := a)) by (lia || assumption). cbn [bind]. rewrite (py_get_nonneg a (i := iky) (a := b)) by (lia || assumption). cbn [bind]. rewrite (py_get_nonneg b (i := 0) (a := s)) by (lia || assumption). cbn [bind].
  rewrite (py_get_nonneg (shift_mat_by_pi ek) (i := ikx) (a := a')) by (lia || assumption). cbn [bind]. rewrite (py_get_nonneg a' (i := iky) (a := b')) by (lia || assumption). cbn [bind]. erewrite (py_get_nonneg b' (i := 0)) by (lia || eassumption). cbn [bind].
  do 2 f_equal. apply zget_ext; [rewrite !zlen_map; exact (H _ _ _ _ Es)|]. intros t Ht. rewrite !zget_map. rewrite zlen_map in Ht. pose proof (H _ _ _ _ Es) as Ls. unfold C in *. rewrite Ls in Ht. destruct (@zget_in_range _ w t Ht) as [x Ex].
  pose proof (V ikx iky 0%Z t x Rx Ry ltac:(lia) Ex) as Vt. unfold get4 in Vt. rewrite Es in Vt. cbn in Vt. unfold C in *. rewrite Vt, Ex. reflexivity.
Qed.
