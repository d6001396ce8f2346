(** Two paths worked out: Gamma-X-M on an even mesh and the line through the whole zone. *)
From Coq Require Import ZArith Reals List String Ascii Lra Lia.
From Verif Require Import Base.PyBase Base.PyFacts Base.Arr Model.Util Model.KPath Model.RankFiles Model.PathPlot Spec.KPathSpec Spec.ShownKSpec Spec.PathPlotSpec
  Proofs.KPathP Proofs.PathPlotP Proofs.PathTickP Proofs.PathCrossP.
Import ListNotations.
Set Implicit Arguments.
Local Open Scope Z_scope.

Lemma np_round_eq x z : x = IZR z -> np_round x = z.
Proof. intros ->. apply np_round_int. Qed.
Lemma sqrt_x a b c x : (0 <= x)%R -> (a * a + b * b + c * c = x * x)%R -> sqrt (Rsqr a + Rsqr b + Rsqr c) = x.
Proof. intros H E. unfold Rsqr. rewrite E. now apply sqrt_square. Qed.
Lemma idx_const s n nkp t z : (s * IZR n = IZR z)%R -> 0 <= z < n -> segment_index s s n nkp t = z.
Proof.
  intros E Hz. unfold segment_index. replace (s * IZR n + IZR t / IZR nkp * ((s - s) * IZR n))%R with (IZR z) by (rewrite <- E; unfold Rdiv; ring).
  rewrite np_round_int. destruct (Z.leb_spec n z); [lia|reflexivity].
Qed.
Lemma idx_up s n nkp t e : s = 0%R -> ((e - s) * IZR n = IZR nkp)%R -> 0 <= t < nkp -> nkp <= n -> segment_index s e n nkp t = t.
Proof.
  intros -> E Ht Hn. unfold segment_index. rewrite E. replace (0 * IZR n + IZR t / IZR nkp * IZR nkp)%R with (IZR t).
  - rewrite np_round_int. destruct (Z.leb_spec n t); [lia|reflexivity].
  - assert (IZR nkp <> 0)%R by (apply not_0_IZR; lia). field. assumption.
Qed.
Lemma GXM_path float_of m : 0 < m -> exists kp, make_kpath float_of (2 * m, 2 * m, 2 * m) "Gamma-X-M" "-" = Ok kp /\ kp_nkp kp = [m; m] /\
  Forall unit_pt (kp_corners kp) /\
  kp_pts kp = (map (fun t => (t, 0, 0)) (range m) ++ map (fun t => (m, t, 0)) (range m))%list.
Proof.
  intros Hm. unfold make_kpath. change (split_on "-" "Gamma-X-M") with ["Gamma"; "X"; "M"]%string.
  change (corner_k_points float_of ["Gamma"; "X"; "M"]%string) with (Ok [(0, 0, 0)%R; (1/2, 0, 0)%R; (1/2, 1/2, 0)%R]). cbn [bind].
  assert (HM : (0 < IZR m)%R) by now apply IZR_lt.
  assert (H2m : IZR (2 * m) = (2 * IZR m)%R) by apply mult_IZR.
  assert (N1 : segment_nkp (0, 0, 0)%R (1/2, 0, 0)%R (2 * m, 2 * m, 2 * m) = m).
  { cbn [segment_nkp]. apply np_round_eq, sqrt_x; [lra|]. rewrite H2m. field. }
  assert (N2 : segment_nkp (1/2, 0, 0)%R (1/2, 1/2, 0)%R (2 * m, 2 * m, 2 * m) = m).
  { cbn [segment_nkp]. apply np_round_eq, sqrt_x; [lra|]. rewrite H2m. field. }
  assert (E : build_k_path [(0, 0, 0)%R; (1/2, 0, 0)%R; (1/2, 1/2, 0)%R] (2 * m, 2 * m, 2 * m) =
    ((map (fun t => (t, 0, 0)) (range m) ++ map (fun t => (m, t, 0)) (range m))%list, [m; m])).
  { rewrite !build_cons. cbn [build_k_path fst snd]. rewrite app_nil_r. unfold kpath_segment. rewrite N1, N2. cbn [fst snd]. f_equal. f_equal.
    - apply map_ext_in. intros t Ht. apply In_arange in Ht. f_equal; [f_equal|].
      + apply idx_up; [reflexivity| |lia|lia]. rewrite H2m. field.
      + apply idx_const; [ring|lia].
      + apply idx_const; [ring|lia].
    - apply map_ext_in. intros t Ht. apply In_arange in Ht. f_equal; [f_equal|].
      + apply idx_const; [rewrite H2m; field|lia].
      + apply idx_up; [reflexivity| |lia|lia]. rewrite H2m. field.
      + apply idx_const; [ring|lia]. }
  assert (Hu : Forall unit_pt [(0, 0, 0)%R; (1/2, 0, 0)%R; (1/2, 1/2, 0)%R]) by (apply Forall_forall; intros x Hx; cbn in Hx; repeat (destruct Hx as [<-|Hx]; [cbn; lra|]); destruct Hx).
  pose proof (@path_on_mesh _ (2 * m, 2 * m, 2 * m) ltac:(unfold pos_grid; lia) Hu) as (_ & Hg). rewrite E in *. cbn [fst snd] in Hg.
  rewrite kpath_val_isotropic by assumption. cbn [bind]. eexists. split; [reflexivity|]. cbn. auto.
Qed.
Lemma zone_line float_of n : 0 < n -> float_of "1"%string = Ok 1%R -> float_of "0"%string = Ok 0%R ->
  exists kp, make_kpath float_of (n, n, n) "Gamma-1 0 0" "-" = Ok kp /\ kp_nkp kp = [n] /\
    kp_val kp = (map (mom n) (range n), map (fun _ => 0%R) (range n), map (fun _ => 0%R) (range n)).
Proof.
  intros Hn F1 F0. unfold make_kpath. change (split_on "-" "Gamma-1 0 0") with ["Gamma"; "1 0 0"]%string.
  assert (Ec : corner_k_points float_of ["Gamma"; "1 0 0"]%string = Ok [(0, 0, 0)%R; (1, 0, 0)%R]).
  { apply corners_iff. constructor; [apply cm_named with "$\Gamma$"%string; constructor|]. constructor; [|constructor].
    change "1 0 0"%string with (join " " ["1"; "0"; "0"]%string).
    apply cm_three; auto; unfold has_char; cbn; intros [H|[]]; discriminate. }
  rewrite Ec. cbn [bind]. assert (HN : (0 < IZR n)%R) by now apply IZR_lt.
  assert (N1 : segment_nkp (0, 0, 0)%R (1, 0, 0)%R (n, n, n) = n).
  { cbn [segment_nkp]. apply np_round_eq, sqrt_x; [lra|]. ring. }
  assert (E : build_k_path [(0, 0, 0)%R; (1, 0, 0)%R] (n, n, n) = (map (fun t => (t, 0, 0)) (range n), [n])).
  { rewrite !build_cons. cbn [build_k_path fst snd]. rewrite app_nil_r. unfold kpath_segment. rewrite N1. cbn [fst snd]. f_equal.
    apply map_ext_in. intros t Ht. apply In_arange in Ht. f_equal; [f_equal|].
    - apply idx_up; [reflexivity|ring|lia|lia].
    - apply idx_const; [ring|lia].
    - apply idx_const; [ring|lia]. }
  assert (Hu : Forall unit_pt [(0, 0, 0)%R; (1, 0, 0)%R]) by (apply Forall_forall; intros x Hx; cbn in Hx; repeat (destruct Hx as [<-|Hx]; [cbn; lra|]); destruct Hx).
  pose proof (@path_on_mesh _ (n, n, n) ltac:(unfold pos_grid; lia) Hu) as (_ & Hg). rewrite E in *. cbn [fst snd] in Hg.
  rewrite kpath_val_isotropic by assumption. cbn [bind]. eexists. split; [reflexivity|]. cbn. split; [reflexivity|]. rewrite !map_map. cbn [fst snd].
  assert (E0 : k_axis_val n 0 = 0%R) by (unfold k_axis_val, Rdiv; ring). f_equal; [f_equal|].
  - apply map_ext. intros t. now rewrite E0.
  - apply map_ext. intros t. now rewrite E0.
Qed.
Theorem zone_line_crossing float_of n m kp : 1 < m -> 2 * m < n -> float_of "1"%string = Ok 1%R -> float_of "0"%string = Ok 0%R ->
  make_kpath float_of (n, n, n) "Gamma-1 0 0" "-" = Ok kp ->
  exists k, searched (kp_nkp kp) 0 (n - m) /\ point_xy (kp_val kp) (n - m) k /\ same_momentum (- mom n m, 0)%R k /\
    find_fermi_crossing [(- mom n m, 0)%R] (kp_val kp) (kp_nkp kp) = Ok [0].
Proof.
  intros Hm Hn F1 F0 H. destruct (@zone_line float_of n ltac:(lia) F1 F0) as (kp' & E & En & Ev). rewrite H in E. injection E as <-.
  assert (HN : (0 < IZR n)%R) by (apply IZR_lt; lia). assert (P := PI_RGT_0).
  assert (G0 : forall t, 0 <= t < n -> zget (map (mom n) (range n)) t = Some (mom n t)).
  { intros t Ht. unfold range. rewrite zget_map, zget_arange by lia. cbn. now rewrite ?Z.add_0_l. }
  assert (G1 : forall t, 0 <= t < n -> zget (map (fun _ : Z => 0%R) (range n)) t = Some 0%R).
  { intros t Ht. unfold range. rewrite zget_map, zget_arange by lia. reflexivity. }
  assert (Hpt : forall t, 0 <= t < n -> point_xy (kp_val kp) t (mom n t, 0%R)).
  { intros t Ht. rewrite Ev. split; cbn [fst snd]; auto. }
  assert (Hpos : forall t, 0 <= t -> (0 <= mom n t)%R).
  { intros t Ht. unfold mom. apply IZR_le in Ht. apply Rmult_le_pos; [apply Rmult_le_pos; lra|apply Rlt_le, Rinv_0_lt_compat; lra]. }
  assert (Hd : forall t, 0 <= t -> distance_to [(- mom n m, 0)%R] (mom n t, 0%R) (mom n m + mom n t)%R).
  { intros t Ht. assert (Ed : distance (- mom n m, 0)%R (mom n t, 0%R) = (mom n m + mom n t)%R).
    { unfold distance. cbn [fst snd]. pose proof (Hpos t Ht). pose proof (Hpos m ltac:(lia)).
      replace ((- mom n m - mom n t) * (- mom n m - mom n t) + (0 - 0) * (0 - 0))%R with ((mom n m + mom n t) * (mom n m + mom n t))%R by ring. apply sqrt_square. lra. }
    split; [eexists; split; [now left|exact Ed]|]. intros p [<-|[]]. lra. }
  assert (Hs : forall t, searched (kp_nkp kp) 0 t <-> 0 <= t < n - 1).
  { intros t. rewrite En. unfold searched. change (corner_pos [n] 0) with 0. change (corner_pos [n] (0 + 1)) with (n + 0). lia. }
  exists (mom n (n - m), 0%R). split; [apply Hs; lia|]. split; [apply Hpt; lia|]. split.
  { exists (-1), 0. cbn [fst snd]. unfold mom. rewrite minus_IZR. split; [field; lra|ring]. }
  destruct (@crossing_ok float_of _ _ _ kp H [(- mom n m, 0)%R]) as [r Hr].
  { split; [discriminate|]. intros j x Hx. rewrite En in Hx. rewrite zget_cons in Hx. destruct (Z.eqb_spec j 0); [injection Hx as <-; lia|]. now rewrite zget_nil in Hx. }
  rewrite Hr. destruct (@crossing_spec float_of _ _ _ kp H _ r Hr) as (Hl & Hg). rewrite En in Hl. cbn in Hl.
  destruct (Hg 0) as (t & k & d & Ht & Hst & Hk & Hdk & Hmin); [rewrite En; cbn; lia|]. apply Hs in Hst.
  assert (t = 0).
  { destruct (Z.eq_dec t 0) as [|Hne]; [assumption|exfalso]. destruct (Hmin 0 (mom n 0, 0%R) (mom n m + mom n 0)%R) as (Hle & _); [apply Hs; lia|apply Hpt; lia|apply Hd; lia|].
    assert (k = (mom n t, 0%R)). { pose proof (Hpt t ltac:(lia)) as (A1 & A2). destruct Hk as (B1 & B2). destruct k. cbn in *. congruence. } subst k.
    rewrite (distance_to_uniq Hdk (Hd t ltac:(lia))) in Hle.
    assert (mom n 0 < mom n t)%R. { unfold mom. apply Rmult_lt_compat_r; [now apply Rinv_0_lt_compat|]. apply Rmult_lt_compat_l; [lra|]. apply IZR_lt. lia. } lra. }
  subst t. destruct r as [|x [|y r]]; [cbn in Hl; lia| |rewrite !zlen_cons in Hl; pose proof (zlen_nonneg r); lia]. rewrite zget_cons_0 in Ht. congruence.
Qed.
