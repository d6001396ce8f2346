(** Proofs about the search for crossings with the Fermi surface along a path. *)
From Coq Require Import ZArith Reals List String Ascii Lra Lia.
From Verif Require Import Base.PyBase Base.PyFacts Base.Arr Model.Util Model.KPath Model.RankFiles Model.PathPlot Spec.KPathSpec Spec.ShownKSpec Spec.PathPlotSpec
  Proofs.KPathP Proofs.PathPlotP Proofs.PathTickP.
Import ListNotations.
Set Implicit Arguments.
Local Open Scope Z_scope.

Lemma mapM_one_error A B (f : A -> res B) e l : (forall x, In x l -> (exists y, f x = Ok y) \/ f x = Raise e) ->
  ((exists r, mapM f l = Ok r) /\ forall x, In x l -> exists y, f x = Ok y) \/ (mapM f l = Raise e /\ exists x, In x l /\ f x = Raise e).
Proof.
  induction l as [|x l IH]; intros H; [left; split; [eexists; reflexivity|intros x []]|]. cbn [mapM].
  destruct (H x (or_introl eq_refl)) as [[y Hy]|Hy]; rewrite Hy; cbn [bind].
  - destruct IH as [[[r Hr] Hall]|[Hr (z & Hz & Hfz)]]; [intros z Hz; apply H; now right| |].
    + left. rewrite Hr. cbn [bind]. split; [eexists; reflexivity|]. intros z [<-|Hz]; [eauto|auto].
    + right. rewrite Hr. split; [reflexivity|]. exists z. split; [now right|exact Hfz].
  - right. split; [reflexivity|]. exists x. split; [now left|exact Hy].
Qed.
Lemma find_as_mapM fermi k0 k1 k2 nkp : find_fermi_crossing fermi (k0, k1, k2) nkp = mapM (crossing_of fermi k0 k1 nkp) (range (zlen nkp)).
Proof. unfold find_fermi_crossing. rewrite zlen_nk_seg. reflexivity. Qed.
Lemma searched_start nkp j t : Forall (fun n => 0 <= n) nkp -> 0 <= j < zlen nkp -> 0 <= seg_start nkp j ->
  searched nkp j t <-> seg_start nkp j <= t < seg_start nkp (j + 1).
Proof.
  intros Hf Hj Hs. unfold searched, seg_start in *. destruct (Z.eqb_spec (j + 1) 0); [lia|]. destruct (Z.eqb_spec j 0) as [->|Hne]; [|lia].
  rewrite corner_pos_0. lia.
Qed.
Lemma kpath_lens float_of nk path d kp : make_kpath float_of nk path d = Ok kp ->
  Forall (fun n => 0 <= n) (kp_nkp kp) /\ zlen (fst (fst (kp_val kp))) = nk_tot (kp_nkp kp) /\ zlen (snd (fst (kp_val kp))) = nk_tot (kp_nkp kp) /\
  zlen (kp_names kp) = zlen (kp_nkp kp) + 1 /\ kp_nkp kp <> [].
Proof.
  intros H. apply make_kpath_inv in H. destruct H as (_ & Hc & _ & Hb & Hne & Hv).
  destruct (len_build (kp_corners kp) nk) as (H1 & H2 & H3). rewrite Hb in *. cbn [fst snd] in *.
  split; [assumption|]. unfold get_kpath_val in Hv. destruct nk as [[n1 n2] n3].
  destruct (take (k_axis n1) (map (fun p => fst (fst p)) (kp_pts kp))) as [a|] eqn:Ea; cbn [bind] in Hv; [|discriminate].
  destruct (take (k_axis n1) (map (fun p => snd (fst p)) (kp_pts kp))) as [b|] eqn:Eb; cbn [bind] in Hv; [|discriminate].
  destruct (take (k_axis n1) (map snd (kp_pts kp))) as [c|] eqn:Ec; cbn [bind] in Hv; [|discriminate]. injection Hv as Hv. rewrite <- Hv. cbn [fst snd].
  destruct (mapM_zget _ _ Ea) as [La _]. destruct (mapM_zget _ _ Eb) as [Lb _]. rewrite zlen_map in La, Lb. unfold nk_tot. rewrite <- H3. split; [exact La|]. split; [exact Lb|].
  split; [|assumption]. assert (Hc2 : length (kp_names kp) = length (kp_corners kp)) by (clear -Hc; induction Hc; cbn; congruence). unfold zlen. destruct (kp_nkp kp); [congruence|]. cbn [length] in *. lia.
Qed.

Section K.
Variable float_of : string -> res R.
Variables (nk : zpoint) (path : string) (d : ascii) (kp : kpath).
Hypothesis Hkp : make_kpath float_of nk path d = Ok kp.
Variable fermi : list (R * R).
Notation nkp := (kp_nkp kp).
Lemma starts_nonneg n : zget nkp 0 = Some n -> 0 < n -> forall j, 0 <= j <= zlen nkp -> 0 <= seg_start nkp j.
Proof.
  intros Hn Hp j Hj. destruct (@kpath_lens _ _ _ _ _ Hkp) as (Hf & _). unfold seg_start. destruct (Z.eqb_spec j 0); [lia|].
  pose proof (@corner_pos_mono _ Hf 1 j ltac:(lia) ltac:(lia)) as M. pose proof (corner_pos_S _ _ Hn) as E. rewrite corner_pos_0 in E. change (0 + 1) with 1 in E. lia.
Qed.
Lemma first_ok r : find_fermi_crossing fermi (kp_val kp) nkp = Ok r -> exists n, zget nkp 0 = Some n /\ 1 < n.
Proof.
  destruct (@kpath_lens _ _ _ _ _ Hkp) as (Hf & L0 & L1 & _ & Hne). destruct (kp_val kp) as [[k0 k1] k2]. cbn [fst snd] in *. rewrite find_as_mapM. intros H.
  assert (Hl : 0 < zlen nkp) by (destruct nkp; [congruence|rewrite zlen_cons; pose proof (zlen_nonneg l); lia]).
  destruct (zget_in_range nkp (i := 0) ltac:(lia)) as [n Hn]. exists n. split; [assumption|].
  destruct (Z.lt_ge_cases 1 n) as [|Hle]; [assumption|]. exfalso. 
  assert (E : crossing_of fermi k0 k1 nkp 0 = Raise ValueError).
  { apply crossing_one_raise; auto; [lia|cbn; lia|]. right. change (seg_start nkp 0) with 0. change (seg_start nkp (0 + 1)) with (corner_pos nkp 1 - 1). pose proof (corner_pos_S _ _ Hn) as E. rewrite corner_pos_0 in E. change (0 + 1) with 1 in E. lia. }
  assert (Hr : exists e, mapM (crossing_of fermi k0 k1 nkp) (range (zlen nkp)) = Raise e).
  { apply mapM_raise. exists 0, ValueError. split; [|assumption]. apply In_arange. lia. }
  destruct Hr. congruence.
Qed.
Theorem crossing_spec r : find_fermi_crossing fermi (kp_val kp) nkp = Ok r ->
  zlen r = zlen nkp /\ forall j, 0 <= j < zlen nkp -> exists t k dist, zget r j = Some t /\ searched nkp j t /\ point_xy (kp_val kp) t k /\ distance_to fermi k dist /\
    forall t' k' dist', searched nkp j t' -> point_xy (kp_val kp) t' k' -> distance_to fermi k' dist' -> (dist <= dist')%R /\ (t' < t -> (dist < dist')%R).
Proof.
  intros H. destruct (first_ok H) as (n & Hn & H1). pose proof (starts_nonneg Hn ltac:(lia)) as Hs.
  destruct (@kpath_lens _ _ _ _ _ Hkp) as (Hf & L0 & L1 & _ & Hne). destruct (kp_val kp) as [[k0 k1] k2]. cbn [fst snd] in *. rewrite find_as_mapM in H.
  destruct (mapM_zget _ _ H) as [Hl Hg]. unfold range in Hl. rewrite zlen_arange in Hl. pose proof (zlen_nonneg nkp). split; [lia|].
  intros j Hj. destruct (Hg j j) as (t & Ht & Hc); [unfold range; rewrite zget_arange by lia; f_equal; lia|].
  destruct (@crossing_one fermi k0 k1 nkp j t Hj (Hs j ltac:(lia)) Hc) as (Hr & k & dd & Hk & Hd & Hm).
  exists t, k, dd. split; [exact Ht|]. split; [apply searched_start; auto; apply Hs; lia|]. split; [exact Hk|]. split; [exact Hd|].
  intros t' k' d' Ht' Hk' Hd'. apply (Hm t' k' d'); auto. apply searched_start; auto; apply Hs; lia.
Qed.
Definition enough_points : Prop := fermi <> [] /\ forall j n, zget nkp j = Some n -> (if j =? 0 then 1 < n else 0 < n).
Theorem crossing_ok : enough_points -> exists r, find_fermi_crossing fermi (kp_val kp) nkp = Ok r.
Proof.
  intros (Hfe & Hn). destruct (@kpath_lens _ _ _ _ _ Hkp) as (Hf & L0 & L1 & _ & Hne). 
  assert (Hl : 0 < zlen nkp) by (destruct nkp; [congruence|rewrite zlen_cons; pose proof (zlen_nonneg l); lia]).
  destruct (zget_in_range nkp (i := 0) ltac:(lia)) as [n0 Hn0]. pose proof (Hn _ _ Hn0) as H0. cbn in H0. pose proof (starts_nonneg Hn0 ltac:(lia)) as Hs.
  destruct (kp_val kp) as [[k0 k1] k2]. cbn [fst snd] in *. rewrite find_as_mapM. apply mapM_build. intros j Hj. apply In_arange in Hj.
  apply crossing_one_ok; auto; [apply Hs; lia|]. destruct (zget_in_range nkp (i := j) ltac:(lia)) as [n Hnj]. pose proof (Hn _ _ Hnj) as Hp.
  unfold seg_start. destruct (Z.eqb_spec (j + 1) 0); [lia|]. rewrite (corner_pos_S _ _ Hnj). destruct (Z.eqb_spec j 0) as [->|]; [rewrite corner_pos_0|]; lia.
Qed.
Theorem crossing_fails : ~ enough_points -> find_fermi_crossing fermi (kp_val kp) nkp = Raise ValueError.
Proof.
  intros Hno. destruct (find_fermi_crossing fermi (kp_val kp) nkp) as [r|e] eqn:E.
  - exfalso. apply Hno. destruct (first_ok E) as (n & Hn & H1). destruct (crossing_spec E) as (Hl & Hg). split.
    + intros ->. destruct (Hg 0) as (t & k & dd & _ & _ & _ & ((p & [] & _) & _) & _). pose proof (zget_some_range _ _ Hn). lia.
    + intros j m Hm. pose proof (zget_some_range _ _ Hm) as Hr. destruct (Z.eqb_spec j 0) as [->|Hj]; [congruence|].
      destruct (Hg j Hr) as (t & k & dd & _ & Hst & _). unfold searched in Hst. rewrite (corner_pos_S _ _ Hm) in Hst. lia.
  - destruct (@kpath_lens _ _ _ _ _ Hkp) as (Hf & L0 & L1 & _ & Hne).
    assert (Hl : 0 < zlen nkp) by (destruct nkp; [congruence|rewrite zlen_cons; pose proof (zlen_nonneg l); lia]).
    destruct (zget_in_range nkp (i := 0) ltac:(lia)) as [n0 Hn0]. 
    destruct (kp_val kp) as [[k0 k1] k2]. cbn [fst snd] in *. rewrite find_as_mapM in E.
    destruct (Z.lt_ge_cases 0 n0) as [Hp|Hle].
    + pose proof (starts_nonneg Hn0 Hp) as Hs.
      destruct (@mapM_one_error _ _ (crossing_of fermi k0 k1 nkp) ValueError (range (zlen nkp))) as [[[r Hr] _]|[Hr _]]; [|congruence|congruence].
      intros j Hj. apply In_arange in Hj. destruct fermi as [|p ps] eqn:Ef; [right; apply crossing_one_raise; auto; apply Hs; lia|]. rewrite <- Ef in *.
      destruct (Z.lt_ge_cases (seg_start nkp j) (seg_start nkp (j + 1))) as [Hlt|Hge].
      * left. apply crossing_one_ok; auto; [apply Hs; lia|congruence].
      * right. apply crossing_one_raise; auto. apply Hs; lia.
    + assert (E0 : crossing_of fermi k0 k1 nkp 0 = Raise ValueError).
      { apply crossing_one_raise; auto; [lia|cbn; lia|]. right. change (seg_start nkp 0) with 0. change (seg_start nkp (0 + 1)) with (corner_pos nkp 1 - 1). pose proof (corner_pos_S _ _ Hn0) as E1. rewrite corner_pos_0 in E1. change (0 + 1) with 1 in E1. lia. }
      assert (Er : range (zlen nkp) = 0 :: arange 1 (zlen nkp)).
      { unfold range, arange. replace (Z.to_nat (zlen nkp - 0)) with (S (Z.to_nat (zlen nkp - 1))) by lia. cbn [seq map]. f_equal. rewrite <- seq_shift, map_map. apply map_ext. intros; lia. }
      rewrite Er in E. cbn [mapM] in E. rewrite E0 in E. cbn [bind] in E. congruence.
Qed.
Theorem last_missed r t : find_fermi_crossing fermi (kp_val kp) nkp = Ok r -> In t r -> 0 <= t < nk_tot nkp - 1.
Proof.
  intros H Hin. destruct (crossing_spec H) as (Hl & Hg). apply In_nth_error in Hin. destruct Hin as [i Hi].
  assert (Hz : zget r (Z.of_nat i) = Some t) by (unfold zget; destruct (Z.ltb_spec (Z.of_nat i) 0); [lia|]; now rewrite Nat2Z.id).
  pose proof (zget_some_range _ _ Hz) as Hr. destruct (Hg (Z.of_nat i) ltac:(lia)) as (t' & k & dd & Ht' & Hst & _). rewrite Hz in Ht'. injection Ht' as <-.
  destruct (@kpath_lens _ _ _ _ _ Hkp) as (Hf & _). unfold searched in Hst. pose proof (@corner_pos_mono _ Hf (Z.of_nat i + 1) (zlen nkp) ltac:(lia) ltac:(lia)) as M. rewrite corner_pos_all in M. lia.
Qed.
End K.
(** every other point is looked at for exactly one segment *)
Theorem searched_once nkp t : Forall (fun n => 0 <= n) nkp -> 0 <= t < nk_tot nkp - 1 -> exists j, (0 <= j < zlen nkp /\ searched nkp j t) /\ forall j', 0 <= j' < zlen nkp -> searched nkp j' t -> j' = j.
Proof.
  intros Hf Ht.
  assert (Hex : forall m, 0 <= m -> m <= zlen nkp -> t + 1 < corner_pos nkp m -> exists j, 0 <= j < m /\ corner_pos nkp j <= t + 1 < corner_pos nkp (j + 1)).
  { intros m Hm. pattern m. apply natlike_ind; [rewrite corner_pos_0; lia| |assumption]. intros x Hx IH Hl Hlt.
    destruct (Z.lt_ge_cases (t + 1) (corner_pos nkp x)) as [H|H]; [destruct (IH ltac:(lia) H) as (j & Hj & Hc); exists j; split; [lia|exact Hc]|].
    exists x. replace (x + 1) with (Z.succ x) by lia. split; lia. }
  pose proof (zlen_nonneg nkp) as Hz. destruct (Hex (zlen nkp) ltac:(lia) ltac:(lia)) as (j & Hj & Hc); [rewrite corner_pos_all; lia|].
  exists j. split; [split; [lia|split; [lia|exact Hc]]|]. intros j' Hj' (_ & Hc').
  destruct (Z.lt_trichotomy j' j) as [H|[H|H]]; [|assumption|]; exfalso.
  - pose proof (@corner_pos_mono _ Hf (j' + 1) j ltac:(lia) ltac:(lia)). lia.
  - pose proof (@corner_pos_mono _ Hf (j + 1) j' ltac:(lia) ltac:(lia)). lia.
Qed.
(** the distances do not know the period of the zone *)
Theorem other_zone fermi k dist : (forall p, In p fermi -> (fst p < PI)%R) -> (PI <= fst k)%R -> distance_to fermi k dist -> (0 < dist)%R.
Proof.
  intros H Hk [(p & Hp & <-) _]. specialize (H p Hp). unfold distance. apply sqrt_lt_R0.
  assert (0 < (fst p - fst k) * (fst p - fst k))%R by nra. pose proof (Rle_0_sqr (snd p - snd k)) as Hs. unfold Rsqr in Hs. lra.
Qed.
Lemma sqrt_axis a : (0 <= a)%R -> sqrt (a * a + 0 * 0) = a.
Proof. intros H. replace (a * a + 0 * 0)%R with (Rsqr a) by (unfold Rsqr; ring). now apply sqrt_Rsqr. Qed.
