(** C111: paths through the Brillouin zone as given and shown: names of corners, labels and ticks, values along the path, crossings with the Fermi surface.

    [make_kpath float_of nk path d]: KPath(nk, path, path_deliminator=d), [float_of] being Python's float() of a string; [labels], [x_ticks], [path_axis],
    [map_to_kpath]: the properties of the object; [find_fermi_crossing]: postproc/util.py. *)
From Coq Require Import ZArith Reals List String Ascii Lra Lia.
From Verif Require Import Base.PyBase Base.PyFacts Base.Arr Model.Util Model.KPath Model.RankFiles Model.PathPlot Spec.KPathSpec Spec.ShownKSpec Spec.PathPlotSpec
  Proofs.KPathP Proofs.PathPlotP Proofs.PathTickP Proofs.PathCrossP Proofs.PathExP.
Import ListNotations.
Local Open Scope Z_scope.

(** Names written one after the other with the delimiter are the corners of the path, if none of them contains the delimiter. *)
Theorem C111_names float_of nk d names kp : names <> [] -> (forall n, In n names -> ~ has_char d n) ->
  make_kpath float_of nk (join d names) d = Ok kp -> kp_names kp = names /\ Forall2 (corner_means float_of) names (kp_corners kp).
Proof.
  intros Hne Hc H. apply make_kpath_inv in H. destruct H as (E & Hf & _). rewrite E in Hf. rewrite E. rewrite split_join in * by assumption. split; [reflexivity|exact Hf].
Qed.
Print Assumptions C111_names.

(** Corners are read exactly if each is a name, three numbers or - finding - one number, which then stands for all three coordinates. *)
Theorem C111_corners float_of names pts : corner_k_points float_of names = Ok pts <-> Forall2 (corner_means float_of) names pts.
Proof. apply corners_iff. Qed.
Print Assumptions C111_corners.

(** Finding: with the delimiter '-' of the code no corner can begin with a negative number: such a path is refused. *)
Theorem C111_negative_finding float_of nk a b kp : (forall r, float_of EmptyString <> Ok r) ->
  make_kpath float_of nk (a ++ "--" ++ b)%string "-" <> Ok kp.
Proof. intros Hf H. exact (@negative_refused float_of nk a b kp Hf H). Qed.
Print Assumptions C111_negative_finding.

(** One label and one tick per corner: ticks exist, begin at 0, end at 1 and never go back; the label of corner j is that of the named point or K with the number j. *)
Theorem C111_labels_and_ticks float_of nk path d kp : make_kpath float_of nk path d = Ok kp -> Forall (fun n => 0 < n) (kp_nkp kp) ->
  exists ticks, x_ticks (kp_nkp kp) = Ok ticks /\ zlen ticks = zlen (kp_names kp) /\ zlen (labels (kp_names kp)) = zlen (kp_names kp) /\
    zget ticks 0 = Some 0%R /\ (1 < nk_tot (kp_nkp kp) -> zget ticks (zlen ticks - 1) = Some 1%R) /\
    (forall i j a b, i <= j -> zget ticks i = Some a -> zget ticks j = Some b -> (a <= b)%R) /\
    forall j s, nth_error (kp_names kp) j = Some s ->
      (forall p l, named_point s p l -> nth_error (labels (kp_names kp)) j = Some l) /\
      (~ is_named s -> nth_error (labels (kp_names kp)) j = Some (String "K" (str_of_nat j))).
Proof.
  intros H Hf. destruct (@kpath_lens _ _ _ _ _ H) as (_ & _ & _ & Hl & Hne).
  destruct (ticks_ok Hne Hf) as (t & Et & _). exists t. destruct (@ticks_shown _ _ Hne Hf Et) as (Hz & H0 & H1 & Hm).
  split; [exact Et|]. split; [lia|]. split; [unfold zlen, labels; now rewrite labels_len|]. split; [exact H0|]. split; [|split; [exact Hm|]].
  - intros HN. replace (zlen t - 1) with (zlen (kp_nkp kp)) by lia. now apply H1.
  - intros j s Hs. exact (labels_from_spec float_of (kp_names kp) 0%nat j Hs).
Qed.
Print Assumptions C111_labels_and_ticks.

(** Refuted: the tick of an inner corner is not at the corner but one point before it. *)
Theorem C111_tick_position_refuted nkp ticks j : Forall (fun n => 0 < n) nkp -> x_ticks nkp = Ok ticks -> 0 < j < zlen nkp ->
  exists tick here, zget ticks j = Some tick /\ zget (path_axis nkp) (corner_pos nkp j) = Some here /\ (here - tick = 1 / IZR (zsum nkp - 1))%R /\ (tick < here)%R.
Proof.
  intros Hf E Hj. destruct (@tick_before_corner _ _ Hf E j Hj) as (a & b & Ha & Hb & Hd & HN). exists a, b. split; [exact Ha|]. split; [exact Hb|]. split; [exact Hd|].
  assert (0 < 1 / IZR (nk_tot nkp - 1))%R. { apply Rmult_lt_0_compat; [lra|]. apply Rinv_0_lt_compat, IZR_lt. lia. } lra.
Qed.
Print Assumptions C111_tick_position_refuted.

(** On an isotropic mesh the values shown along the path are those of the function at the momenta the object reports, one per path point. *)
Theorem C111_values float_of A n path d kp (F : R -> R -> R -> A) mat : 0 < n -> make_kpath float_of (n, n, n) path d = Ok kp -> Forall unit_pt (kp_corners kp) ->
  samples3 F n n n mat ->
  exists vals, map_to_kpath (kp_pts kp) mat = Ok vals /\ zlen vals = zlen (path_axis (kp_nkp kp)) /\
    forall t, 0 <= t < zlen vals -> exists a b c, zget (fst (fst (kp_val kp))) t = Some a /\ zget (snd (fst (kp_val kp))) t = Some b /\ zget (snd (kp_val kp)) t = Some c /\
      zget vals t = Some (F a b c).
Proof.
  intros Hn H Hu Hs. destruct (@values_on_path float_of A n path d kp F mat Hn H Hu Hs) as (v & Ev & Hl & Hg). exists v. split; [exact Ev|].
  assert (HN : 0 <= nk_tot (kp_nkp kp)) by (rewrite <- Hl; apply zlen_nonneg).
  split; [unfold path_axis, range; rewrite zlen_map, zlen_arange; lia|]. intros t Ht. apply Hg. lia.
Qed.
Print Assumptions C111_values.

(** For every segment the crossing returned is the first of the points looked at with the smallest distance from the Fermi points. *)
Theorem C111_crossing float_of nk path d kp fermi r : make_kpath float_of nk path d = Ok kp -> find_fermi_crossing fermi (kp_val kp) (kp_nkp kp) = Ok r ->
  zlen r = zlen (kp_names kp) - 1 /\
  forall j, 0 <= j < zlen r -> exists t k dist, zget r j = Some t /\ searched (kp_nkp kp) j t /\ point_xy (kp_val kp) t k /\ distance_to fermi k dist /\
    forall t' k' dist', searched (kp_nkp kp) j t' -> point_xy (kp_val kp) t' k' -> distance_to fermi k' dist' -> (dist <= dist')%R /\ (t' < t -> (dist < dist')%R).
Proof.
  intros H Hr. destruct (@crossing_spec float_of nk path d kp H fermi r Hr) as (Hl & Hg). destruct (@kpath_lens _ _ _ _ _ H) as (_ & _ & _ & Hn & _). split; [lia|]. intros j Hj. apply Hg. lia.
Qed.
Print Assumptions C111_crossing.

(** It is found exactly if there are Fermi points and every segment has points (the first: more than one); otherwise ValueError. *)
Theorem C111_crossing_found float_of nk path d kp fermi : make_kpath float_of nk path d = Ok kp ->
  let good := fermi <> [] /\ forall j n, zget (kp_nkp kp) j = Some n -> if j =? 0 then 1 < n else 0 < n in
  (good -> exists r, find_fermi_crossing fermi (kp_val kp) (kp_nkp kp) = Ok r) /\
  (~ good -> find_fermi_crossing fermi (kp_val kp) (kp_nkp kp) = Raise ValueError).
Proof. intros H good. split; [apply (@crossing_ok float_of nk path d kp H fermi)|apply (@crossing_fails float_of nk path d kp H fermi)]. Qed.
Print Assumptions C111_crossing_found.

(** All points but the last are looked at, each for one segment. *)
Theorem C111_looked_at float_of nk path d kp t : make_kpath float_of nk path d = Ok kp -> 0 <= t < zsum (kp_nkp kp) - 1 ->
  exists j, (0 <= j < zlen (kp_nkp kp) /\ searched (kp_nkp kp) j t) /\ forall j', 0 <= j' < zlen (kp_nkp kp) -> searched (kp_nkp kp) j' t -> j' = j.
Proof. intros H. destruct (@kpath_lens _ _ _ _ _ H) as (Hf & _). now apply searched_once. Qed.
Print Assumptions C111_looked_at.

(** Refuted: the last point of the path is never a crossing, wherever the Fermi surface is. *)
Theorem C111_last_point_refuted float_of nk path d kp fermi r t : make_kpath float_of nk path d = Ok kp -> find_fermi_crossing fermi (kp_val kp) (kp_nkp kp) = Ok r ->
  In t r -> 0 <= t < zsum (kp_nkp kp) - 1.
Proof. intros H Hr. exact (@last_missed float_of nk path d kp H fermi r t Hr). Qed.
Print Assumptions C111_last_point_refuted.

(** Refuted: crossings in the part of the zone beyond pi are not recognised if the Fermi points are given on the axes from -pi to pi (as the scripts do):
    the distances do not know the period of the zone.  On the line through the whole zone the crossing at -k_m, a path point, is reported at Gamma. *)
Theorem C111_beyond_pi_refuted float_of n m kp : 1 < m -> 2 * m < n -> float_of "1"%string = Ok 1%R -> float_of "0"%string = Ok 0%R ->
  make_kpath float_of (n, n, n) "Gamma-1 0 0" "-" = Ok kp ->
  exists k, searched (kp_nkp kp) 0 (n - m) /\ point_xy (kp_val kp) (n - m) k /\ same_momentum (- mom n m, 0)%R k /\
    find_fermi_crossing [(- mom n m, 0)%R] (kp_val kp) (kp_nkp kp) = Ok [0].
Proof. apply zone_line_crossing. Qed.
Print Assumptions C111_beyond_pi_refuted.
Theorem C111_beyond_pi_distance_refuted fermi k dist : (forall p, In p fermi -> (fst p < PI)%R) -> (PI <= fst k)%R -> distance_to fermi k dist -> (0 < dist)%R.
Proof. apply other_zone. Qed.
Print Assumptions C111_beyond_pi_distance_refuted.

(** ** Non-vacuity *)
(** The path Gamma-X-M on a mesh of 2m momenta per direction exists, its segments have m points each, and its corners are in the unit cube. *)
Example C111_ex_path float_of m : 1 < m -> exists kp, make_kpath float_of (2 * m, 2 * m, 2 * m) "Gamma-X-M" "-" = Ok kp /\ Forall (fun n => 0 < n) (kp_nkp kp) /\
  Forall unit_pt (kp_corners kp) /\ zlen (kp_nkp kp) = 2 /\ corner_pos (kp_nkp kp) 1 = m /\ zget (kp_pts kp) m = Some (m, 0, 0) /\
  exists r, find_fermi_crossing [(PI / 2, 0)%R] (kp_val kp) (kp_nkp kp) = Ok r.
Proof.
  intros Hm. destruct (@GXM_path float_of m ltac:(lia)) as (kp & E & En & Hu & Hp). exists kp. split; [exact E|]. rewrite En, Hp.
  split; [repeat constructor; lia|]. split; [exact Hu|]. split; [reflexivity|]. split; [change (corner_pos [m; m] 1) with (m + 0); lia|]. split.
  - rewrite zget_app, zlen_map. unfold range. rewrite zlen_arange. destruct (Z.ltb_spec m (Z.max 0 (m - 0))); [lia|].
    replace (m - Z.max 0 (m - 0)) with 0 by lia. rewrite zget_map, zget_arange by lia. reflexivity.
  - rewrite <- En. apply (@crossing_ok float_of _ _ _ kp E). split; [discriminate|]. rewrite En. intros j n Hj. repeat rewrite zget_cons in Hj.
    destruct (Z.eqb_spec j 0); [injection Hj as <-; lia|]. destruct (Z.eqb_spec (j - 1) 0); [injection Hj as <-; lia|]. now rewrite zget_nil in Hj.
Qed.
Example C111_ex_labels : labels ["Gamma"; "0.25 0 0"; "M2"]%string = ["$\Gamma$"; "K1"; "M/2"]%string.
Proof. reflexivity. Qed.
(** one number stands for three coordinates *)
Example C111_ex_one_number float_of : float_of "0.5"%string = Ok (1/2)%R -> corner_k_points float_of ["0.5"]%string = Ok [(1/2, 1/2, 1/2)%R].
Proof. intros H. cbn. now rewrite H. Qed.
