(** Lemmas about real-frequency meshes. *)
From Coq Require Import ZArith Reals List String Lia Lra Psatz.
From Verif Require Import Base.PyBase Base.PyFacts Model.RealMesh Spec.RealMeshSpec.
Import ListNotations.
Local Open Scope R_scope.

Definition incr (n : Z) (t : Z -> R) := forall i j, (0 <= i)%Z -> (i < j)%Z -> (j < n)%Z -> t i < t j.
Definition centred (n : Z) (t : Z -> R) (c : R) := forall i, (0 <= i < n)%Z -> t (n - 1 - i)%Z = c - t i.

Lemma zget_some A (l : list A) i a : zget l i = Some a -> (0 <= i < zlen l)%Z.
Proof.
  intros H. destruct (Z_lt_dec i 0) as [H1|H1]; [rewrite zget_neg in H by lia; discriminate|].
  destruct (Z_lt_dec i (zlen l)) as [H2|H2]; [lia|]. rewrite zget_ge in H by lia. discriminate.
Qed.
Lemma mesh_of_fun n f wmin wmax : (1 <= n)%Z -> f 0%Z = wmin -> f (n - 1)%Z = wmax -> incr n f -> centred n f (wmin + wmax) ->
  frequency_mesh (map f (arange 0 n)) n wmin wmax.
Proof.
  intros Hn H0 H1 Hi Hc. assert (L : zlen (map f (arange 0 n)) = n) by (rewrite zlen_map, zlen_arange; lia).
  assert (G : forall i, (0 <= i < n)%Z -> zget (map f (arange 0 n)) i = Some (f i)) by (intros i H; rewrite zget_map, zget_arange by lia; reflexivity).
  split; auto.
  - rewrite G by lia. now rewrite H0.
  - rewrite G by lia. now rewrite H1.
  - intros i j a b Hij Ha Hb. pose proof (zget_some _ _ _ _ Ha). pose proof (zget_some _ _ _ _ Hb). rewrite L in *. rewrite G in Ha, Hb by lia.
    injection Ha as <-. injection Hb as <-. apply Hi; lia.
  - intros i a Ha. pose proof (zget_some _ _ _ _ Ha). rewrite L in *. rewrite G in * by lia. injection Ha as <-. f_equal. apply Hc. lia.
Qed.
Lemma linspace_ok a b n : (0 <= n)%Z -> linspace a b n = Ok (map (fun i => a + IZR i * ((b - a) / IZR (n - 1))) (arange 0 n)).
Proof. intros H. unfold linspace. destruct (Z.ltb_spec n 0); [lia|reflexivity]. Qed.
Lemma unit_scale_ok n t : (1 <= n)%Z -> unit_scale (map t (arange 0 n)) = Ok (map (fun i => (t i - t 0%Z) / (t (n - 1)%Z - t 0%Z)) (arange 0 n)).
Proof.
  intros Hn. unfold unit_scale, py_get. rewrite zlen_map, zlen_arange, Z.max_r by lia. cbn [Z.ltb Z.compare].
  rewrite !zget_map, !zget_arange by lia. cbn [option_map bind]. rewrite map_map. replace (0 + (-1 + (n - 0)))%Z with (n - 1)%Z by lia. reflexivity.
Qed.
Lemma scale_incr n t : (2 <= n)%Z -> incr n t -> incr n (fun i => (t i - t 0%Z) / (t (n - 1)%Z - t 0%Z)).
Proof.
  intros Hn Hi i j H1 H2 H3. pose proof (Hi 0%Z (n - 1)%Z ltac:(lia) ltac:(lia) ltac:(lia)). pose proof (Hi i j H1 H2 H3). unfold Rdiv. apply Rmult_lt_compat_r; [apply Rinv_0_lt_compat; lra|lra].
Qed.
Lemma scale_centred n t c : (2 <= n)%Z -> incr n t -> centred n t c -> centred n (fun i => (t i - t 0%Z) / (t (n - 1)%Z - t 0%Z)) 1.
Proof.
  intros Hn Hi Hc i H. pose proof (Hi 0%Z (n - 1)%Z ltac:(lia) ltac:(lia) ltac:(lia)). pose proof (Hc 0%Z ltac:(lia)) as E. replace (n - 1 - 0)%Z with (n - 1)%Z in E by lia.
  rewrite (Hc i H). rewrite E in *. field. lra.
Qed.
Lemma affine_mesh n t c wmin wmax f : (2 <= n)%Z -> wmin < wmax -> incr n t -> centred n t c ->
  (forall s, f s = wmin + (wmax - wmin) * s) ->
  frequency_mesh (map f (map (fun i => (t i - t 0%Z) / (t (n - 1)%Z - t 0%Z)) (arange 0 n))) n wmin wmax.
Proof.
  intros Hn Hw Hi Hc Hf. rewrite map_map. pose proof (Hi 0%Z (n - 1)%Z ltac:(lia) ltac:(lia) ltac:(lia)). apply mesh_of_fun; [lia| | | |].
  - rewrite Hf. field. lra.
  - rewrite Hf. field. lra.
  - intros i j H1 H2 H3. rewrite !Hf. pose proof (scale_incr n t Hn Hi i j H1 H2 H3) as S. cbn beta in S. apply Rplus_lt_compat_l, Rmult_lt_compat_l; [lra|exact S].
  - intros i H1. rewrite !Hf. pose proof (scale_centred n t c Hn Hi Hc i H1) as S. cbn beta in S. rewrite S. ring.
Qed.
Lemma lin_incr a b n : (2 <= n)%Z -> a < b -> incr n (fun i => a + IZR i * ((b - a) / IZR (n - 1))).
Proof.
  intros Hn Hab i j H1 H2 H3. apply Rplus_lt_compat_l, Rmult_lt_compat_r; [|now apply IZR_lt]. unfold Rdiv. apply Rmult_lt_0_compat; [lra|]. apply Rinv_0_lt_compat. apply IZR_lt. lia.
Qed.
Lemma lin_centred a b n : (2 <= n)%Z -> centred n (fun i => a + IZR i * ((b - a) / IZR (n - 1))) (a + b).
Proof. intros Hn i H. rewrite (minus_IZR (n - 1) i). field. apply not_0_IZR. lia. Qed.
Lemma lin_range a b n i : (2 <= n)%Z -> a < b -> (0 <= i < n)%Z -> a <= a + IZR i * ((b - a) / IZR (n - 1)) <= b.
Proof.
  intros Hn Hab Hi. assert (0 < IZR (n - 1)) by (apply IZR_lt; lia). assert (0 <= IZR i) by (apply IZR_le; lia). assert (IZR i <= IZR (n - 1)) by (apply IZR_le; lia).
  assert (0 < (b - a) / IZR (n - 1)) by (unfold Rdiv; apply Rmult_lt_0_compat; [lra|now apply Rinv_0_lt_compat]).
  split; [nra|]. assert (IZR i * ((b - a) / IZR (n - 1)) <= IZR (n - 1) * ((b - a) / IZR (n - 1))) by (apply Rmult_le_compat_r; lra).
  assert (IZR (n - 1) * ((b - a) / IZR (n - 1)) = b - a) by (field; lra). lra.
Qed.
Lemma linear_ok wmin wmax n : (2 <= n)%Z -> wmin < wmax -> exists w, linear_w_mesh wmin wmax n = Ok w /\ frequency_mesh w n wmin wmax.
Proof.
  intros Hn Hw. unfold linear_w_mesh. rewrite linspace_ok by lia. eexists. split; [reflexivity|]. apply mesh_of_fun; [lia|ring|field; apply not_0_IZR; lia|now apply lin_incr|now apply lin_centred].
Qed.
(** a strictly increasing odd function of a linear mesh *)
Lemma odd_mesh (g : R -> R) a n : (2 <= n)%Z -> 0 < a -> (forall x y, - a <= x -> x < y -> y <= a -> g x < g y) -> (forall x, g (- x) = - g x) ->
  let t := fun i => g (- a + IZR i * ((a - - a) / IZR (n - 1))) in incr n t /\ centred n t 0.
Proof.
  intros Hn Ha Hg Ho t. split.
  - intros i j H1 H2 H3. unfold t. apply Hg; [apply lin_range; lra || lia|apply (lin_incr (- a) a n Hn ltac:(lra)); lia|apply lin_range; lra || lia].
  - intros i H. unfold t. pose proof (lin_centred (- a) a n Hn i H) as E. cbn beta in E. rewrite E. replace (- a + a - (- a + IZR i * ((a - - a) / IZR (n - 1)))) with (- (- a + IZR i * ((a - - a) / IZR (n - 1)))) by ring. rewrite Ho. ring.
Qed.
Lemma tan_ok wmin wmax n : (2 <= n)%Z -> wmin < wmax -> exists w, tan_w_mesh wmin wmax n = Ok w /\ frequency_mesh w n wmin wmax.
Proof.
  intros Hn Hw. pose proof PI_RGT_0 as Hpi. unfold tan_w_mesh. rewrite linspace_ok by lia. cbn [bind]. rewrite map_map.
  replace (- PI / 2.5) with (- (PI / 2.5)) by lra.
  assert (Hq : 0 < PI / 2.5 < PI / 2) by lra.
  assert (Ht : 0 < tan (PI / 2.5)) by (rewrite <- tan_0; apply tan_increasing; lra).
  pose (g := fun u => tan u * 1 / tan (PI / 2.5)).
  destruct (odd_mesh g (PI / 2.5) n Hn ltac:(lra)) as [I C].
  - intros x y H1 H2 H3. unfold g. unfold Rdiv. apply Rmult_lt_compat_r; [now apply Rinv_0_lt_compat|]. pose proof (tan_increasing x y ltac:(lra) H2 ltac:(lra)). lra.
  - intros x. unfold g. rewrite tan_neg. field. lra.
  - unfold g in I, C. cbn beta in I, C.
    match type of I with incr _ ?t => rewrite (unit_scale_ok n t) by lia end. cbn [bind]. eexists. split; [reflexivity|].
    match type of I with incr _ ?t => exact (affine_mesh n t 0 wmin wmax (fun s => wmin + (wmax - wmin) * s) Hn Hw I C (fun s => eq_refl)) end.
Qed.
Definition hyp (u : R) : R := rsign u * (sqrt (1 + u ^ 2) - 1).
Lemma rsign_neg x : rsign (- x) = - rsign x.
Proof. unfold rsign. destruct (Rlt_dec 0 (- x)), (Rlt_dec (- x) 0), (Rlt_dec 0 x), (Rlt_dec x 0); lra. Qed.
Lemma hyp_odd x : hyp (- x) = - hyp x.
Proof. unfold hyp. rewrite rsign_neg. replace ((- x) ^ 2) with (x ^ 2) by ring. ring. Qed.
Lemma hyp_pos x y : 0 <= x -> x < y -> hyp x < hyp y.
Proof.
  intros H1 H2. unfold hyp. assert (S : sqrt (1 + x ^ 2) < sqrt (1 + y ^ 2)) by (apply sqrt_lt_1; nra).
  assert (S1 : 1 <= sqrt (1 + x ^ 2)) by (rewrite <- sqrt_1 at 1; apply sqrt_le_1; nra).
  unfold rsign. destruct (Rlt_dec 0 x), (Rlt_dec 0 y), (Rlt_dec x 0); try lra.
Qed.
Lemma hyp_incr x y : x < y -> hyp x < hyp y.
Proof.
  intros H. destruct (Rle_dec 0 x) as [Hx|Hx]; [now apply hyp_pos|]. destruct (Rle_dec y 0) as [Hy|Hy].
  - pose proof (hyp_pos (- y) (- x) ltac:(lra) ltac:(lra)). rewrite !hyp_odd in *. lra.
  - pose proof (hyp_pos 0 (- x) ltac:(lra) ltac:(lra)). pose proof (hyp_pos 0 y ltac:(lra) ltac:(lra)). rewrite hyp_odd in *.
    assert (hyp 0 = 0) by (pose proof (hyp_odd 0); rewrite Ropp_0 in *; lra). lra.
Qed.
Lemma hyperbolic_ok wmin wmax n : (2 <= n)%Z -> wmin < wmax -> exists w, hyperbolic_w_mesh wmin wmax n = Ok w /\ frequency_mesh w n wmin wmax.
Proof.
  intros Hn Hw. unfold hyperbolic_w_mesh. replace (-1) with (- (1)) by lra. rewrite linspace_ok by lia. cbn [bind]. rewrite map_map.
  destruct (odd_mesh hyp 1 n Hn ltac:(lra)) as [I C]; [intros; now apply hyp_incr|exact hyp_odd|].
  unfold hyp in I, C. cbn beta in I, C.
  match type of I with incr _ ?t => rewrite (unit_scale_ok n t) by lia end. cbn [bind]. eexists. split; [reflexivity|]. match type of I with incr _ ?t => exact (affine_mesh n t 0 wmin wmax (fun s => wmin + (wmax - wmin) * s) Hn Hw I C (fun s => eq_refl)) end.
Qed.
Lemma slice_m1 A (l : list A) : (1 <= zlen l)%Z -> slice l 0 (-1) = slice l 0 (zlen l - 1).
Proof. intros H. unfold slice, clampi. cbn [Z.ltb Z.compare]. destruct (Z.ltb_spec (zlen l - 1) 0); [lia|]. do 2 f_equal; lia. Qed.
Lemma map2_shift (W : Z -> R) (f : R -> R -> R) n : (0 <= n)%Z -> map2 f (slice (map W (arange 0 (n + 1))) 0 (-1)) (slice (map W (arange 0 (n + 1))) 1 (zlen (map W (arange 0 (n + 1))))) = map (fun i => f (W i) (W (i + 1)%Z)) (arange 0 n).
Proof.
  intros Hn. assert (L : zlen (map W (arange 0 (n + 1))) = (n + 1)%Z) by (rewrite zlen_map, zlen_arange; lia). rewrite slice_m1 by lia. rewrite L, !slice_map, !slice_arange by lia.
  replace (n + 1 - 1)%Z with n by lia. replace (arange 1 (n + 1)) with (map (fun i => 1 + i)%Z (arange 0 n)) by (rewrite arange_map_add; f_equal; lia). rewrite map_map.
  induction (arange 0 n) as [|x l IH]; [reflexivity|]. cbn [map map2]. rewrite IH. do 3 f_equal. lia.
Qed.
Lemma lorentzian_ok wmin wmax n cut : (2 <= n)%Z -> wmin < wmax -> 0 < cut < 1 / 2 -> exists w, lorentzian_w_mesh wmin wmax n cut = Ok w /\ frequency_mesh w n wmin wmax.
Proof.
  intros Hn Hw Hc. pose proof PI_RGT_0 as Hpi. unfold lorentzian_w_mesh. rewrite linspace_ok by lia. cbn [bind]. rewrite map_map. replace (n + 1 - 1)%Z with n by lia.
  set (t := fun i => tan (PI * ((0 + IZR i * ((1 - 0) / IZR n)) * (1 - 2 * cut) + cut - 0.5))).
  assert (Hn0 : 0 < IZR n) by (apply IZR_lt; lia).
  assert (B : forall i, (0 <= i < n + 1)%Z -> 0 <= 0 + IZR i * ((1 - 0) / IZR n) <= 1).
  { intros i Hi. pose proof (lin_range 0 1 (n + 1) i ltac:(lia) ltac:(lra) Hi) as E. replace (n + 1 - 1)%Z with n in E by lia. exact E. }
  assert (I : incr (n + 1) t).
  { intros i j H1 H2 H3. unfold t. pose proof (B i ltac:(lia)). pose proof (B j ltac:(lia)). pose proof (lin_incr 0 1 (n + 1) ltac:(lia) ltac:(lra) i j H1 H2 H3) as L. cbn beta in L. replace (n + 1 - 1)%Z with n in L by lia.
    set (x := 0 + IZR i * _) in *. set (y := 0 + IZR j * _) in *. assert (x * (1 - 2 * cut) < y * (1 - 2 * cut)) by (apply Rmult_lt_compat_r; lra).
    assert (0 <= x * (1 - 2 * cut)) by (apply Rmult_le_pos; lra). assert (y * (1 - 2 * cut) <= 1 * (1 - 2 * cut)) by (apply Rmult_le_compat_r; lra).
    apply tan_increasing.
    - assert (PI * (-1 / 2) < PI * (x * (1 - 2 * cut) + cut - 0.5)) by (apply Rmult_lt_compat_l; lra). lra.
    - apply Rmult_lt_compat_l; lra.
    - assert (PI * (y * (1 - 2 * cut) + cut - 0.5) < PI * (1 / 2)) by (apply Rmult_lt_compat_l; lra). lra. }
  assert (C : centred (n + 1) t 0).
  { intros i Hi. unfold t. rewrite Rminus_0_l, <- tan_neg. f_equal. replace (n + 1 - 1 - i)%Z with (n - i)%Z by lia. rewrite minus_IZR. replace 0.5 with (1 / 2) by lra. field. lra. }
  rewrite (unit_scale_ok (n + 1) t) by lia. cbn [bind]. rewrite map_map. replace (n + 1 - 1)%Z with n by lia. rewrite map2_shift by lia.
  set (W := fun i => wmin + (wmax - wmin) * ((t i - t 0%Z) / (t n - t 0%Z))).
  change (exists w, (let! s := unit_scale (map (fun i => (W i + W (i + 1)%Z) / 2) (arange 0 n)) in Ok (map (fun s => s * (wmax - wmin) + wmin) s)) = Ok w /\ frequency_mesh w n wmin wmax).
  pose proof (scale_incr (n + 1) t ltac:(lia) I) as SI. pose proof (scale_centred (n + 1) t 0 ltac:(lia) I C) as SC. replace (n + 1 - 1)%Z with n in SI, SC by lia.
  assert (IW : incr (n + 1) W). { intros i j H1 H2 H3. unfold W. apply Rplus_lt_compat_l, Rmult_lt_compat_l; [lra|]. exact (SI i j H1 H2 H3). }
  assert (CW : forall i, (0 <= i <= n)%Z -> W (n - i)%Z = wmin + wmax - W i).
  { intros i Hi. pose proof (SC i ltac:(lia)) as E. cbn beta in E. replace (n + 1 - 1 - i)%Z with (n - i)%Z in E by lia. unfold W. rewrite E. ring. }
  rewrite (unit_scale_ok n (fun i => (W i + W (i + 1)%Z) / 2)) by lia. cbn [bind]. eexists. split; [reflexivity|].
  apply (affine_mesh n (fun i => (W i + W (i + 1)%Z) / 2) (wmin + wmax) wmin wmax (fun s => s * (wmax - wmin) + wmin)); auto.
  - intros i j H1 H2 H3. pose proof (IW i j ltac:(lia) ltac:(lia) ltac:(lia)). pose proof (IW (i + 1)%Z (j + 1)%Z ltac:(lia) ltac:(lia) ltac:(lia)). lra.
  - intros i Hi. pose proof (CW i ltac:(lia)) as E1. pose proof (CW (i + 1)%Z ltac:(lia)) as E2. replace (n - 1 - i + 1)%Z with (n - i)%Z by lia. replace (n - 1 - i)%Z with (n - (i + 1))%Z by lia. rewrite E1, E2. field.
  - intros s. ring.
Qed.
Lemma tan_double_gt h : 0 < h -> 2 * h < PI / 2 -> 2 * tan h < tan (2 * h).
Proof.
  intros H1 H2. pose proof PI_RGT_0. assert (T : 0 < tan h) by (rewrite <- tan_0; apply tan_increasing; lra).
  assert (C1 : cos h <> 0) by (apply Rgt_not_eq, cos_gt_0; lra). assert (C2 : cos (2 * h) <> 0) by (apply Rgt_not_eq, cos_gt_0; lra).
  assert (T2 : 0 < tan (2 * h)) by (rewrite <- tan_0; apply tan_increasing; lra).
  assert (C3 : 1 - tan h * tan h <> 0). { intros E. assert (tan h = 1) by nra. assert (h = PI / 4). { destruct (Rtotal_order h (PI / 4)) as [L|[L|L]]; auto; exfalso.
      - pose proof (tan_increasing h (PI / 4) ltac:(lra) L ltac:(lra)). rewrite tan_PI4 in *. lra.
      - pose proof (tan_increasing (PI / 4) h ltac:(lra) L ltac:(lra)). rewrite tan_PI4 in *. lra. } lra. }
  assert (E : tan (2 * h) = 2 * tan h / (1 - tan h * tan h)) by (replace (2 * h) with (h + h) by ring; rewrite tan_plus; auto; [field; lra|replace (h + h) with (2 * h) by ring; auto]).
  assert (P : 0 < 1 - tan h * tan h). { destruct (Rtotal_order 0 (1 - tan h * tan h)) as [L|[L|L]]; auto; [lra|]. exfalso. assert (2 * tan h / (1 - tan h * tan h) < 0) by (pose proof (Rinv_lt_0_compat _ L); unfold Rdiv; nra). lra. }
  rewrite E. apply (Rmult_lt_reg_r (1 - tan h * tan h)); auto. replace (2 * tan h / (1 - tan h * tan h) * (1 - tan h * tan h)) with (2 * tan h) by (field; auto).
  assert (0 < tan h * (tan h * tan h)) by (apply Rmult_lt_0_compat; [exact T|apply Rmult_lt_0_compat; exact T]). lra.
Qed.
Lemma some_inj A (x y : A) : Some x = Some y -> x = y. Proof. congruence. Qed.
Lemma tan_not_uniform wmin wmax M w a b c : (2 <= M)%Z -> wmin < wmax -> tan_w_mesh wmin wmax (2 * M + 1) = Ok w ->
  zget w M = Some a -> zget w (M + 1) = Some b -> zget w (M + 2) = Some c -> b - a < c - b.
Proof.
  intros HM Hw E Ha Hb Hc. pose proof PI_RGT_0 as Hpi. unfold tan_w_mesh in E. rewrite linspace_ok in E by lia. cbn [bind] in E. rewrite map_map in E.
  replace (- PI / 2.5) with (- (PI / 2.5)) in E by lra. replace (2 * M + 1 - 1)%Z with (2 * M)%Z in E by lia.
  set (q := PI / 2.5) in *. assert (Hq : 0 < q < PI / 2) by (unfold q; lra). assert (Ht : 0 < tan q) by (rewrite <- tan_0; apply tan_increasing; lra).
  set (t := fun i => tan (- q + IZR i * ((q - - q) / IZR (2 * M))) * 1 / tan q) in E. change (map _ (arange 0 (2 * M + 1))) with (map t (arange 0 (2 * M + 1))) in E.
  rewrite (unit_scale_ok (2 * M + 1) t) in E by lia. cbn [bind] in E. assert (Ew : w = map (fun s => wmin + (wmax - wmin) * s) (map (fun i => (t i - t 0%Z) / (t (2 * M + 1 - 1)%Z - t 0%Z)) (arange 0 (2 * M + 1)))) by congruence. clear E. subst w.
  assert (HM0 : 2 <= IZR M) by (apply IZR_le; lia).
  assert (Tt : forall i, t i = tan (IZR (i - M) * (q / IZR M)) / tan q).
  { intros i. unfold t. rewrite Rmult_1_r. do 2 f_equal. rewrite minus_IZR, mult_IZR. field. lra. }
  rewrite zget_map, zget_map in Ha, Hb, Hc. rewrite zget_arange in Ha by lia. rewrite zget_arange in Hb by lia. rewrite zget_arange in Hc by lia. cbn [option_map] in *. apply some_inj in Ha. apply some_inj in Hb. apply some_inj in Hc. subst a b c.
  replace (2 * M + 1 - 1)%Z with (2 * M)%Z by lia. rewrite !Z.add_0_l.
  assert (D : 0 < t (2 * M)%Z - t 0%Z).
  { rewrite !Tt. replace (2 * M - M)%Z with M by lia. rewrite (minus_IZR 0 M). replace (IZR M * (q / IZR M)) with q by (field; lra). replace ((0 - IZR M) * (q / IZR M)) with (- q) by (field; lra).
    rewrite tan_neg. assert (0 < tan q / tan q) by (unfold Rdiv; rewrite Rinv_r; lra). unfold Rdiv in *. lra. }
  set (h := q / IZR M). assert (Hh : 0 < h) by (unfold h, Rdiv; apply Rmult_lt_0_compat; [lra|apply Rinv_0_lt_compat; lra]).
  assert (H2h : 2 * h <= q). { unfold h. apply (Rmult_le_reg_r (IZR M)); [lra|]. replace (2 * (q / IZR M) * IZR M) with (2 * q) by (field; lra). nra. }
  assert (E0 : t M = 0) by (rewrite Tt, Z.sub_diag, Rmult_0_l, tan_0; unfold Rdiv; ring).
  assert (E1 : t (M + 1)%Z = tan h / tan q) by (rewrite Tt; replace (M + 1 - M)%Z with 1%Z by lia; now rewrite Rmult_1_l).
  assert (E2 : t (M + 2)%Z = tan (2 * h) / tan q) by (rewrite Tt; now replace (M + 2 - M)%Z with 2%Z by lia).
  pose proof (tan_double_gt h Hh ltac:(lra)) as G. rewrite E0, E1, E2. set (z := t 0%Z) in *. set (D' := t (2 * M)%Z - z) in *.
  assert (G' : 2 * (tan h / tan q) < tan (2 * h) / tan q). { unfold Rdiv. rewrite <- Rmult_assoc. apply Rmult_lt_compat_r; auto. now apply Rinv_0_lt_compat. }
  set (x := tan h / tan q) in *. set (y := tan (2 * h) / tan q) in *.
  assert (K : 0 < (wmax - wmin) * / D') by (apply Rmult_lt_0_compat; [lra|now apply Rinv_0_lt_compat]). unfold Rdiv. nra.
Qed.
