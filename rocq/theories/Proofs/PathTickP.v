(** Proofs about ticks, values and crossings along a path. *)
From Coq Require Import ZArith Reals List String Ascii Lra Lia.
From Verif Require Import Base.PyBase Base.PyFacts Base.Arr Model.Util Model.KPath Model.RankFiles Model.PathPlot Spec.KPathSpec Spec.ShownKSpec Spec.PathPlotSpec
  Proofs.KPathP Proofs.PathPlotP.
Import ListNotations.
Set Implicit Arguments.
Local Open Scope Z_scope.

(** ** positions *)
(** where the search for segment j begins: the value of cind *)
Definition seg_start (nkp : list Z) (j : Z) : Z := if j =? 0 then 0 else corner_pos nkp j - 1.
Lemma zget_cind nkp j : 0 <= j <= zlen nkp -> zget (cind nkp) j = Some (seg_start nkp j).
Proof.
  intros H. unfold seg_start. destruct (Z.eqb_spec j 0) as [->|Hne]; [reflexivity|].
  pose proof (@cind_off_by_one nkp (j - 1) ltac:(lia)) as E. replace (j - 1 + 1) with j in E by lia. exact E.
Qed.
Lemma zlen_cind nkp : zlen (cind nkp) = zlen nkp + 1.
Proof. unfold cind, cumsum. rewrite zlen_cons, zlen_map, zlen_cumsum_from. lia. Qed.
Lemma zlen_diff l : zlen (diff l) = Z.max 0 (zlen l - 1).
Proof.
  induction l as [|a l IH]; [reflexivity|]. destruct l as [|b l]; [reflexivity|].
  change (diff (a :: b :: l)) with ((b - a) :: diff (b :: l)). rewrite !zlen_cons in *. pose proof (zlen_nonneg l). lia.
Qed.
Lemma zget_diff l : forall j x y, zget l j = Some x -> zget l (j + 1) = Some y -> zget (diff l) j = Some (y - x).
Proof.
  induction l as [|a l IH]; intros j x y Hx Hy; [now rewrite zget_nil in Hx|].
  pose proof (zget_some_range _ _ Hx) as Hr.
  destruct l as [|b l].
  - rewrite zget_cons in Hy. destruct (Z.eqb_spec (j + 1) 0); [lia|]. now rewrite zget_nil in Hy.
  - change (diff (a :: b :: l)) with ((b - a) :: diff (b :: l)). rewrite zget_cons in *.
    destruct (Z.eqb_spec j 0) as [->|Hne].
    + injection Hx as <-. cbn in Hy. now injection Hy as <-.
    + apply IH; [assumption|]. destruct (Z.eqb_spec (j + 1) 0); [lia|]. now replace (j - 1 + 1) with (j + 1 - 1) by lia.
Qed.
Lemma zlen_nk_seg nkp : zlen (nk_seg nkp) = zlen nkp.
Proof. unfold nk_seg. rewrite zlen_diff, zlen_cind. pose proof (zlen_nonneg nkp). lia. Qed.
Lemma zget_nk_seg nkp j : 0 <= j < zlen nkp -> zget (nk_seg nkp) j = Some (seg_start nkp (j + 1) - seg_start nkp j).
Proof. intros H. unfold nk_seg. apply zget_diff; apply zget_cind; lia. Qed.
Lemma corner_pos_0 nkp : corner_pos nkp 0 = 0. Proof. reflexivity. Qed.
Lemma corner_pos_all nkp : corner_pos nkp (zlen nkp) = nk_tot nkp.
Proof. unfold corner_pos, nk_tot, zlen. now rewrite Nat2Z.id, firstn_all. Qed.
Lemma zsum_firstn_S (l : list Z) : forall i n, nth_error l i = Some n -> zsum (firstn (S i) l) = zsum (firstn i l) + n.
Proof.
  induction l as [|x l IH]; intros [|i] n H; cbn in H; try discriminate.
  - injection H as <-. cbn. lia.
  - specialize (IH _ _ H). change (firstn (S (S i)) (x :: l)) with (x :: firstn (S i) l). change (firstn (S i) (x :: l)) with (x :: firstn i l).
    change (zsum (x :: firstn (S i) l)) with (x + zsum (firstn (S i) l)). change (zsum (x :: firstn i l)) with (x + zsum (firstn i l)). lia.
Qed.
Lemma corner_pos_S nkp j n : zget nkp j = Some n -> corner_pos nkp (j + 1) = corner_pos nkp j + n.
Proof.
  intros H. pose proof (zget_some_range _ _ H) as Hr. unfold corner_pos. replace (Z.to_nat (j + 1)) with (S (Z.to_nat j)) by lia. apply zsum_firstn_S.
  unfold zget in H. destruct (Z.ltb_spec j 0); [discriminate|exact H].
Qed.
Lemma corner_pos_mono nkp : Forall (fun n => 0 <= n) nkp -> forall i j, 0 <= i <= j -> j <= zlen nkp -> corner_pos nkp i <= corner_pos nkp j.
Proof.
  intros Hf i j Hij Hj. revert Hj. replace j with (i + (j - i)) by lia. assert (Hd : 0 <= j - i) by lia. revert Hd. generalize (j - i) as d.
  intros d Hd. pattern d. apply natlike_ind; [rewrite Z.add_0_r; lia| |assumption]. intros e He IH Hl.
  destruct (zget_in_range nkp (i := i + e) ltac:(lia)) as [n Hn].
  replace (i + Z.succ e) with (i + e + 1) by lia. rewrite (corner_pos_S _ _ Hn).
  assert (0 <= n). { rewrite Forall_forall in Hf. apply Hf. unfold zget in Hn. destruct (Z.ltb_spec (i + e) 0); [discriminate|]. eapply nth_error_In; eauto. }
  lia.
Qed.
Lemma zget_In A (l : list A) i x : zget l i = Some x -> In x l.
Proof. unfold zget. destruct (Z.ltb_spec i 0); [discriminate|]. apply nth_error_In. Qed.

(** ** ticks *)
Lemma zget_path_axis nkp t : 0 <= t < nk_tot nkp -> zget (path_axis nkp) t = Some (IZR t / IZR (nk_tot nkp - 1))%R.
Proof. intros H. unfold path_axis, range. rewrite zget_map, zget_arange by lia. cbn. now rewrite ?Z.add_0_l. Qed.
Lemma seg_start_range nkp j : nkp <> [] -> Forall (fun n => 0 < n) nkp -> 0 <= j <= zlen nkp -> 0 <= seg_start nkp j < nk_tot nkp.
Proof.
  intros Hne Hf Hj.
  assert (Hf0 : Forall (fun n => 0 <= n) nkp) by (eapply Forall_impl; [|exact Hf]; cbn; intros; lia).
  assert (Hp : forall j, 0 < j <= zlen nkp -> 0 < corner_pos nkp j).
  { intros i Hi. destruct (zget_in_range nkp (i := 0) ltac:(lia)) as [n Hn]. pose proof (corner_pos_S _ _ Hn) as E. rewrite corner_pos_0 in E.
    pose proof (@corner_pos_mono _ Hf0 1 i ltac:(lia) ltac:(lia)) as M. rewrite Forall_forall in Hf. specialize (Hf n (zget_In _ _ Hn)). change (0 + 1) with 1 in E. lia. }
  assert (Hl : 0 < zlen nkp) by (destruct nkp; [congruence|rewrite zlen_cons; pose proof (zlen_nonneg nkp); lia]).
  pose proof (Hp (zlen nkp) ltac:(lia)) as H1. rewrite corner_pos_all in H1.
  unfold seg_start. destruct (Z.eqb_spec j 0); [lia|]. specialize (Hp j ltac:(lia)). pose proof (@corner_pos_mono _ Hf0 j (zlen nkp) ltac:(lia) ltac:(lia)) as M.
  rewrite corner_pos_all in M. lia.
Qed.
Theorem ticks_ok nkp : nkp <> [] -> Forall (fun n => 0 < n) nkp ->
  exists ticks, x_ticks nkp = Ok ticks /\ zlen ticks = zlen nkp + 1 /\
    forall j, 0 <= j <= zlen nkp -> zget ticks j = Some (IZR (seg_start nkp j) / IZR (nk_tot nkp - 1))%R.
Proof.
  intros Hne Hf. exists (map (fun c => IZR c / IZR (nk_tot nkp - 1))%R (cind nkp)). split; [|split].
  - unfold x_ticks, take. apply mapM_total. intros c Hc. apply In_nth_error in Hc. destruct Hc as [i Hi].
    assert (Hz : zget (cind nkp) (Z.of_nat i) = Some c) by (unfold zget; destruct (Z.ltb_spec (Z.of_nat i) 0); [lia|]; now rewrite Nat2Z.id).
    pose proof (zget_some_range _ _ Hz) as Hr. rewrite zlen_cind in Hr. rewrite zget_cind in Hz by lia. injection Hz as <-.
    pose proof (@seg_start_range nkp (Z.of_nat i) Hne Hf ltac:(lia)) as Hs. apply py_get_nonneg; [lia|]. now apply zget_path_axis.
  - rewrite zlen_map. apply zlen_cind.
  - intros j Hj. rewrite zget_map, zget_cind by assumption. reflexivity.
Qed.
Lemma seg_start_mono nkp : Forall (fun n => 0 < n) nkp -> forall i j, 0 <= i <= j -> j <= zlen nkp -> seg_start nkp i <= seg_start nkp j.
Proof.
  intros Hf i j Hij Hj. assert (Hf0 : Forall (fun n => 0 <= n) nkp) by (eapply Forall_impl; [|exact Hf]; cbn; intros; lia).
  destruct (Z.eq_dec i 0) as [->|Hi].
  - destruct (Z.eq_dec j 0) as [->|Hj0]; [lia|]. assert (nkp <> []) by (intros ->; rewrite zlen_nil in Hj; lia).
    pose proof (@seg_start_range nkp j H Hf ltac:(lia)). change (seg_start nkp 0) with 0. lia.
  - unfold seg_start. destruct (Z.eqb_spec i 0), (Z.eqb_spec j 0); try lia. pose proof (@corner_pos_mono _ Hf0 i j ltac:(lia) ltac:(lia)). lia.
Qed.
Theorem ticks_shown nkp ticks : nkp <> [] -> Forall (fun n => 0 < n) nkp -> x_ticks nkp = Ok ticks ->
  zlen ticks = zlen nkp + 1 /\ zget ticks 0 = Some 0%R /\ (1 < nk_tot nkp -> zget ticks (zlen nkp) = Some 1%R) /\
  forall i j a b, i <= j -> zget ticks i = Some a -> zget ticks j = Some b -> (a <= b)%R.
Proof.
  intros Hne Hf E. destruct (ticks_ok Hne Hf) as (t & Et & Hl & Hg). rewrite E in Et. injection Et as <-.
  pose proof (zlen_nonneg nkp) as Hz. split; [assumption|]. split; [rewrite Hg by lia; change (seg_start nkp 0) with 0; f_equal; unfold Rdiv; lra|].
  assert (Hl0 : 0 < zlen nkp) by (destruct nkp; [congruence|rewrite zlen_cons; pose proof (zlen_nonneg nkp); lia]).
  split.
  - intros HN. rewrite Hg by lia. unfold seg_start. destruct (Z.eqb_spec (zlen nkp) 0); [lia|]. rewrite corner_pos_all. f_equal.
    apply Rinv_r. apply not_0_IZR. lia.
  - intros i j a b Hij Ha Hb. pose proof (zget_some_range _ _ Ha) as Hri. pose proof (zget_some_range _ _ Hb) as Hrj.
    rewrite Hg in Ha by lia. rewrite Hg in Hb by lia. injection Ha as <-. injection Hb as <-.
    pose proof (@seg_start_mono nkp Hf i j ltac:(lia) ltac:(lia)) as M. apply IZR_le in M.
    pose proof (@seg_start_range nkp 0 Hne Hf ltac:(lia)) as S0.
    destruct (Z.eq_dec (nk_tot nkp) 1) as [E1|Hn1].
    + rewrite E1. change (1 - 1) with 0. unfold Rdiv. rewrite Rinv_0. lra.
    + apply Rmult_le_compat_r; [|assumption]. apply Rlt_le, Rinv_0_lt_compat, IZR_lt. lia.
Qed.
Theorem tick_before_corner nkp ticks : Forall (fun n => 0 < n) nkp -> x_ticks nkp = Ok ticks ->
  forall j, 0 < j < zlen nkp -> exists tick here, zget ticks j = Some tick /\ zget (path_axis nkp) (corner_pos nkp j) = Some here /\ (here - tick = 1 / IZR (nk_tot nkp - 1))%R /\ 1 < nk_tot nkp.
Proof.
  intros Hf E j Hj. assert (Hne : nkp <> []) by (intros ->; rewrite zlen_nil in Hj; lia).
  destruct (ticks_ok Hne Hf) as (t & Et & Hl & Hg). rewrite E in Et. injection Et as <-.
  assert (Hf0 : Forall (fun n => 0 <= n) nkp) by (eapply Forall_impl; [|exact Hf]; cbn; intros; lia).
  destruct (zget_in_range nkp (i := j) ltac:(lia)) as [n Hn]. pose proof (corner_pos_S _ _ Hn) as E1.
  pose proof (@corner_pos_mono _ Hf0 (j + 1) (zlen nkp) ltac:(lia) ltac:(lia)) as M. rewrite corner_pos_all in M.
  assert (0 < n) by (rewrite Forall_forall in Hf; exact (Hf n (zget_In _ _ Hn))).
  pose proof (@seg_start_range nkp j Hne Hf ltac:(lia)) as Hs. rewrite Hg by lia. unfold seg_start in *. destruct (Z.eqb_spec j 0); [lia|].
  eexists _, _. split; [reflexivity|]. rewrite zget_path_axis by lia. split; [reflexivity|]. rewrite !minus_IZR.
  split; [|lia]. unfold Rdiv. ring.
Qed.

(** ** values *)
Theorem values_on_path float_of A n path d kp (F : R -> R -> R -> A) mat : 0 < n -> make_kpath float_of (n, n, n) path d = Ok kp -> Forall unit_pt (kp_corners kp) ->
  samples3 F n n n mat ->
  exists vals, map_to_kpath (kp_pts kp) mat = Ok vals /\ zlen vals = nk_tot (kp_nkp kp) /\
    forall t, 0 <= t < nk_tot (kp_nkp kp) -> exists a b c, zget (fst (fst (kp_val kp))) t = Some a /\ zget (snd (fst (kp_val kp))) t = Some b /\ zget (snd (kp_val kp)) t = Some c /\
      zget vals t = Some (F a b c).
Proof.
  intros Hn H Hu (_ & Hs). apply make_kpath_inv in H. destruct H as (_ & _ & _ & Hb & _ & Hv).
  pose proof (@path_on_mesh (kp_corners kp) (n, n, n) ltac:(cbn; lia) Hu) as (Hl & Hg). rewrite Hb in Hl, Hg. cbn [fst snd] in Hl, Hg.
  rewrite kpath_val_isotropic in Hv by assumption. injection Hv as Hv. rewrite <- Hv. cbn [fst snd].
  exists (map (fun k => F (k_axis_val n (fst (fst k))) (k_axis_val n (snd (fst k))) (k_axis_val n (snd k))) (kp_pts kp)). split; [|split].
  - apply mapM_total. intros [[x y] z] Hk. specialize (Hg _ Hk). cbn in Hg. destruct Hg as (Hx & Hy & Hz). specialize (Hs x y z Hx Hy Hz).
    unfold get3, get2 in Hs. destruct (zget mat x) as [m|] eqn:E1; cbn in Hs; [|discriminate]. destruct (zget m y) as [r|] eqn:E2; cbn in Hs; [|discriminate].
    rewrite (py_get_nonneg _ (proj1 Hx) E1). cbn [bind]. rewrite (py_get_nonneg _ (proj1 Hy) E2). cbn [bind]. now rewrite (py_get_nonneg _ (proj1 Hz) Hs).
  - rewrite zlen_map. exact Hl.
  - intros t Ht. unfold nk_tot in Ht. rewrite <- Hl in Ht. destruct (zget_in_range (kp_pts kp) Ht) as [k Hk]. do 3 eexists. repeat split; rewrite zget_map; unfold zpoint in *; rewrite Hk; reflexivity.
Qed.

(** ** crossings *)
Lemma fold_min_spec l : forall x, let m := fold_left Rmin l x in (m <= x)%R /\ (forall y, In y l -> (m <= y)%R) /\ (m = x \/ In m l).
Proof.
  induction l as [|y l IH]; intros x; cbn zeta; cbn [fold_left]; [split; [lra|split; [intros y []|now left]]|].
  destruct (IH (Rmin x y)) as (H1 & H2 & H3). set (m := fold_left Rmin l (Rmin x y)) in *.
  pose proof (Rmin_l x y). pose proof (Rmin_r x y). split; [lra|]. split.
  - intros z [<-|Hz]; [lra|auto].
  - destruct H3 as [->|H3]; [|right; now right]. unfold Rmin. destruct (Rle_dec x y); [now left|right; now left].
Qed.
Lemma dist2_distance p k : dist2 p k = distance p k. Proof. reflexivity. Qed.
Lemma np_min_distance fermi k d : np_min (map (fun p => dist2 p k) fermi) = Ok d -> distance_to fermi k d.
Proof.
  destruct fermi as [|p0 l]; cbn [map np_min]; [discriminate|]. intros H; injection H as <-.
  destruct (fold_min_spec (map (fun p => dist2 p k) l) (dist2 p0 k)) as (H1 & H2 & H3). set (m := fold_left Rmin _ _) in *. split.
  - destruct H3 as [E|H3]; [exists p0; split; [now left|symmetry; exact E]|]. apply in_map_iff in H3. destruct H3 as (p & E & Hp). exists p. split; [now right|exact E].
  - intros p [<-|Hp]; [exact H1|]. apply H2. apply in_map_iff. exists p. now split.
Qed.
Lemma distance_to_uniq fermi k d d' : distance_to fermi k d -> distance_to fermi k d' -> d = d'.
Proof. intros [(p & Hp & E) H] [(p' & Hp' & E') H']. specialize (H p' Hp'). specialize (H' p Hp). lra. Qed.
Lemma argmin_from_lt l : forall best ib i, ib < i -> argmin_from best ib i l <> ib -> exists w, zget l (argmin_from best ib i l - i) = Some w /\ (w < best)%R.
Proof.
  induction l as [|y l IH]; intros best ib i Hi Hne; cbn [argmin_from] in *; [congruence|]. destruct (Rlt_dec y best) as [H|H].
  - destruct (Z.eq_dec (argmin_from y i (i + 1) l) i) as [E|E].
    + exists y. rewrite E, Z.sub_diag, zget_cons_0. auto.
    + destruct (IH y i (i + 1) ltac:(lia) E) as (w & Hw & Hlt). exists w. split; [|lra].
      pose proof (zget_some_range _ _ Hw). rewrite zget_cons. destruct (Z.eqb_spec (argmin_from y i (i + 1) l - i) 0); [lia|]. rewrite <- Hw. f_equal; lia.
  - destruct (IH best ib (i + 1) ltac:(lia) Hne) as (w & Hw & Hlt). exists w. split; [|lra].
    pose proof (zget_some_range _ _ Hw). rewrite zget_cons. destruct (Z.eqb_spec (argmin_from best ib (i + 1) l - i) 0); [lia|]. rewrite <- Hw. f_equal; lia.
Qed.
Lemma argmin_from_first l : forall best ib i j x, zget l j = Some x -> i + j < argmin_from best ib i l -> ib < i ->
  exists v, zget l (argmin_from best ib i l - i) = Some v /\ (v < x)%R.
Proof.
  induction l as [|y l IH]; intros best ib i j x Hj Hlt Hi; [now rewrite zget_nil in Hj|].
  pose proof (zget_some_range _ _ Hj) as Hr. cbn [argmin_from] in *. rewrite zget_cons in Hj.
  destruct (Rlt_dec y best) as [Hy|Hy]; (destruct (Z.eqb_spec j 0) as [->|Hne]; [injection Hj as ->|]).
  - destruct (argmin_from_lt l x (ib := i) (i := i + 1)) as (w & Hw & Hl); [lia|lia|]. exists w. split; [|lra].
    pose proof (zget_some_range _ _ Hw). rewrite zget_cons. destruct (Z.eqb_spec (argmin_from x i (i + 1) l - i) 0); [lia|]. rewrite <- Hw. f_equal; lia.
  - destruct (IH y i (i + 1) (j - 1) x Hj ltac:(lia) ltac:(lia)) as (w & Hw & Hl). exists w. split; [|lra].
    pose proof (zget_some_range _ _ Hw). rewrite zget_cons. destruct (Z.eqb_spec (argmin_from y i (i + 1) l - i) 0); [lia|]. rewrite <- Hw. f_equal; lia.
  - destruct (argmin_from_lt l best (ib := ib) (i := i + 1)) as (w & Hw & Hl); [lia|lia|]. exists w. split; [|lra].
    pose proof (zget_some_range _ _ Hw). rewrite zget_cons. destruct (Z.eqb_spec (argmin_from best ib (i + 1) l - i) 0); [lia|]. rewrite <- Hw. f_equal; lia.
  - destruct (IH best ib (i + 1) (j - 1) x Hj ltac:(lia) ltac:(lia)) as (w & Hw & Hl). exists w. split; [|lra].
    pose proof (zget_some_range _ _ Hw). rewrite zget_cons. destruct (Z.eqb_spec (argmin_from best ib (i + 1) l - i) 0); [lia|]. rewrite <- Hw. f_equal; lia.
Qed.
Lemma argmin_first l j x : zget l j = Some x -> j < argmin l -> exists v, zget l (argmin l) = Some v /\ (v < x)%R.
Proof.
  destruct l as [|y l]; [now rewrite zget_nil|]. unfold argmin. intros Hj Hlt. pose proof (zget_some_range _ _ Hj) as Hr. rewrite zget_cons in Hj.
  destruct (Z.eqb_spec j 0) as [->|Hne]; [injection Hj as ->|].
  - destruct (argmin_from_lt l x (ib := 0) (i := 1)) as (w & Hw & Hl); [lia|lia|]. exists w. split; [|lra].
    rewrite zget_cons. destruct (Z.eqb_spec (argmin_from x 0 1 l) 0); [lia|]. exact Hw.
  - destruct (argmin_from_first l y (ib := 0) (i := 1) _ Hj) as (w & Hw & Hl); [lia|lia|]. exists w. split; [|lra].
    rewrite zget_cons. destruct (Z.eqb_spec (argmin_from y 0 1 l) 0); [lia|]. exact Hw.
Qed.

Section Crossing.
Variable fermi : list (R * R).
Variables k0 k1 k2 : list R.
Variable nkp : list Z.
Hypothesis Hnn : Forall (fun n => 0 <= n) nkp.
Hypothesis L0 : zlen k0 = nk_tot nkp.
Hypothesis L1 : zlen k1 = nk_tot nkp.
(** the distance of path point t *)
Definition point_at (t : Z) (k : R * R) : Prop := zget k0 t = Some (fst k) /\ zget k1 t = Some (snd k).
Definition crossing_of (j : Z) : res Z :=
    let! n := py_get (nk_seg nkp) j in
    let! dist_to_fermi := mapM (fun i =>
      let! c := py_get (cind nkp) j in
      let ind := i + c in
      let! a := py_get k0 ind in let! b := py_get k1 ind in
      np_min (map (fun p => dist2 p (a, b)) fermi)) (range n) in
    let! m := np_argmin dist_to_fermi in
    let! c := py_get (cind nkp) j in
    Ok (m + c).
Lemma crossing_one j t : 0 <= j < zlen nkp -> 0 <= seg_start nkp j -> crossing_of j = Ok t ->
  seg_start nkp j <= t < seg_start nkp (j + 1) /\
  exists k d, point_at t k /\ distance_to fermi k d /\
    forall t' k' d', seg_start nkp j <= t' < seg_start nkp (j + 1) -> point_at t' k' -> distance_to fermi k' d' -> (d <= d')%R /\ (t' < t -> (d < d')%R).
Proof.
  intros Hj Hs. unfold crossing_of. rewrite (py_get_nonneg _ (proj1 Hj) (@zget_nk_seg nkp j Hj)). cbn [bind].
  set (N := seg_start nkp (j + 1) - seg_start nkp j). set (c := seg_start nkp j) in *.
  rewrite (py_get_nonneg _ (proj1 Hj) (@zget_cind nkp j ltac:(lia))). fold c.
  destruct (mapM _ (range N)) as [dl|] eqn:E; cbn [bind]; [|discriminate].
  destruct (mapM_zget _ _ E) as [Hl Hg]. unfold range in Hl. rewrite zlen_arange in Hl.
  destruct dl as [|d0 dl'] eqn:Edl; cbn [np_argmin bind]; [discriminate|]. rewrite <- Edl in *. intros H; injection H as <-.
  assert (Hne : dl <> []) by (rewrite Edl; discriminate).
  destruct (argmin_min Hne) as (v & Hv & Hm). pose proof (zget_some_range _ _ Hv) as Hr. clear Edl.
  assert (Hd : forall i w, zget dl i = Some w -> 0 <= i < N /\ exists k, point_at (i + c) k /\ distance_to fermi k w).
  { intros i w Hw. pose proof (zget_some_range _ _ Hw) as Hri. destruct (Z.max_spec 0 (N - 0)) as [[? M]|[? M]]; [|lia].
    split; [lia|]. assert (Hz : zget (range N) i = Some i) by (unfold range; rewrite zget_arange by lia; f_equal; lia).
    destruct (Hg _ _ Hz) as (w' & Hw' & Hf). rewrite Hw in Hw'. injection Hw' as <-. cbn [bind] in Hf.
    destruct (py_get k0 (i + c)) as [a|] eqn:Ea; cbn [bind] in Hf; [|discriminate].
    destruct (py_get k1 (i + c)) as [b|] eqn:Eb; cbn [bind] in Hf; [|discriminate].
    exists (a, b). split; [|now apply np_min_distance].
    unfold py_get in Ea, Eb. destruct (Z.ltb_spec (i + c) 0); [lia|]. unfold point_at. cbn.
    destruct (zget k0 (i + c)); [injection Ea as ->|discriminate]. destruct (zget k1 (i + c)); [injection Eb as ->|discriminate]. auto. }
  destruct (Hd _ _ Hv) as (Hi & k & Hk & Hdk). split; [unfold N in Hi; lia|]. exists k, v. split; [exact Hk|]. split; [exact Hdk|].
  intros t' k' d' Ht' Hk' Hd'.
  assert (Hz : 0 <= t' - c < zlen dl) by (rewrite Hl; unfold N; lia). destruct (zget_in_range dl Hz) as [w Hw].
  destruct (Hd _ _ Hw) as (_ & k2' & Hk2 & Hd2). replace (t' - c + c) with t' in Hk2 by lia.
  assert (k2' = k') by (destruct k2', k', Hk2, Hk'; cbn in *; congruence). subst k2'. rewrite (distance_to_uniq Hd' Hd2) in *.
  split; [now apply (Hm (t' - c))|]. intros Hlt. destruct (argmin_first _ Hw) as (v' & Hv' & Hlt'); [lia|]. rewrite Hv in Hv'. injection Hv' as <-. exact Hlt'.
Qed.
Lemma crossing_one_ok j : 0 <= j < zlen nkp -> 0 <= seg_start nkp j -> fermi <> [] -> seg_start nkp j < seg_start nkp (j + 1) -> exists t, crossing_of j = Ok t.
Proof.
  intros Hj Hs Hf Hlt. unfold crossing_of. rewrite (py_get_nonneg _ (proj1 Hj) (@zget_nk_seg nkp j Hj)). cbn [bind].
  set (N := seg_start nkp (j + 1) - seg_start nkp j). set (c := seg_start nkp j) in *.
  rewrite (py_get_nonneg _ (proj1 Hj) (@zget_cind nkp j ltac:(lia))). fold c.
  assert (Hend : seg_start nkp (j + 1) < nk_tot nkp).
  { unfold seg_start. destruct (Z.eqb_spec (j + 1) 0); [lia|]. pose proof (@corner_pos_mono _ Hnn (j + 1) (zlen nkp) ltac:(lia) ltac:(lia)) as M.
    rewrite corner_pos_all in M. lia. }
  match goal with |- context [mapM ?f ?l] => destruct (@mapM_build _ _ f l) as [dl E] end.
  { intros i Hi. unfold range in Hi. apply In_arange in Hi. cbn [bind].
    destruct (zget_in_range k0 (i := i + c)) as [a Ha]; [unfold N in Hi; lia|]. destruct (zget_in_range k1 (i := i + c)) as [b Hb]; [unfold N in Hi; lia|].
    assert (Hp : 0 <= i + c) by lia. rewrite (py_get_nonneg _ Hp Ha), (py_get_nonneg _ Hp Hb). cbn [bind]. destruct fermi; [congruence|]. eexists; reflexivity. }
  rewrite E. cbn [bind]. destruct (mapM_zget _ _ E) as [Hl _]. unfold range in Hl. rewrite zlen_arange in Hl.
  destruct dl as [|d0 dl]; [rewrite zlen_nil in Hl; unfold N in Hl; lia|]. eexists; reflexivity.
Qed.
Lemma crossing_one_raise j : 0 <= j < zlen nkp -> 0 <= seg_start nkp j -> fermi = [] \/ seg_start nkp (j + 1) <= seg_start nkp j -> crossing_of j = Raise ValueError.
Proof.
  intros Hj Hs H. unfold crossing_of. rewrite (py_get_nonneg _ (proj1 Hj) (@zget_nk_seg nkp j Hj)). cbn [bind].
  set (N := seg_start nkp (j + 1) - seg_start nkp j). set (c := seg_start nkp j) in *.
  rewrite (py_get_nonneg _ (proj1 Hj) (@zget_cind nkp j ltac:(lia))). fold c.
  assert (Hend : seg_start nkp (j + 1) < nk_tot nkp \/ N <= 0).
  { unfold N, c, seg_start in *. destruct (Z.eqb_spec (j + 1) 0); [lia|]. pose proof (@corner_pos_mono _ Hnn (j + 1) (zlen nkp) ltac:(lia) ltac:(lia)) as M.
    rewrite corner_pos_all in M. lia. }
  destruct (Z.le_gt_cases N 0) as [HN|HN].
  { assert (E : range N = []) by (unfold range, arange; replace (Z.to_nat (N - 0)) with 0%nat by lia; reflexivity). rewrite E. reflexivity. }
  destruct H as [->|H]; [|unfold N in HN; lia].
  assert (E : range N = 0 :: arange 1 N). { unfold range, arange. replace (Z.to_nat (N - 0)) with (S (Z.to_nat (N - 1))) by lia. cbn [seq map]. f_equal. rewrite <- seq_shift, map_map. apply map_ext. intros; lia. }
  rewrite E. cbn [mapM bind].
  destruct (zget_in_range k0 (i := 0 + c)) as [a Ha]; [unfold N in *; lia|]. destruct (zget_in_range k1 (i := 0 + c)) as [b Hb]; [unfold N in *; lia|].
  assert (Hp : 0 <= 0 + c) by lia. rewrite (py_get_nonneg _ Hp Ha), (py_get_nonneg _ Hp Hb). reflexivity.
Qed.
End Crossing.
