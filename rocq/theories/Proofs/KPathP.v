From Coq Require Import Reals Lra.
From Verif Require Import Base.PyBase Base.PyFacts Model.KPath Spec.KPathSpec.
Set Implicit Arguments.
Local Open Scope Z_scope.

Lemma Int_part_spec x : (IZR (Int_part x) <= x < IZR (Int_part x) + 1)%R.
Proof. destruct (base_Int_part x) as [H1 H2]. lra. Qed.
Lemma np_round_near x : (Rabs (x - IZR (np_round x)) <= 1/2)%R.
Proof.
  unfold np_round. pose proof (Int_part_spec x) as [H1 H2]. set (f := Int_part x) in *. cbv zeta.
  destruct (Rlt_dec (x - IZR f) (1/2)); [rewrite Rabs_right; lra|].
  assert (E : forall g, g = f + 1 -> (Rabs (x - IZR g) <= 1/2)%R).
  { intros g ->. rewrite plus_IZR. apply Rabs_le. lra. }
  destruct (Rlt_dec (1/2) (x - IZR f)); [now apply E|]. destruct (Z.even f); [rewrite Rabs_right; lra|now apply E].
Qed.
Lemma np_round_int z : np_round (IZR z) = z.
Proof.
  pose proof (np_round_near (IZR z)) as H. rewrite <- minus_IZR in H. rewrite <- abs_IZR in H.
  assert (Hz : (IZR (Z.abs (z - np_round (IZR z))) < 1)%R) by lra. apply lt_IZR in Hz. lia.
Qed.
Lemma np_round_bounds x a b : (IZR a <= x <= IZR b)%R -> a <= np_round x <= b.
Proof.
  intros [Ha Hb]. pose proof (np_round_near x) as H.
  assert (H' : (-(1/2) <= x - IZR (np_round x) <= 1/2)%R) by (revert H; unfold Rabs; destruct (Rcase_abs _); lra). split.
  - assert (Hl : (IZR (a - 1) < IZR (np_round x))%R) by (rewrite minus_IZR; lra). apply lt_IZR in Hl. lia.
  - assert (Hl : (IZR (np_round x) < IZR (b + 1))%R) by (rewrite plus_IZR; lra). apply lt_IZR in Hl. lia.
Qed.
Lemma segment_index_range s e n nkp t : 0 < n -> (0 <= s <= 1)%R -> (0 <= e <= 1)%R -> 0 <= t < nkp -> 0 <= segment_index s e n nkp t < n.
Proof.
  intros Hn Hs He Ht. unfold segment_index. set (x := (s * IZR n + IZR t / IZR nkp * ((e - s) * IZR n))%R).
  assert (Hb : 0 <= np_round x <= n).
  { apply np_round_bounds. assert (HT : (0 <= IZR t)%R) by (apply IZR_le; lia). assert (HK : (0 < IZR nkp)%R) by (apply IZR_lt; lia).
    assert (HTK : (IZR t < IZR nkp)%R) by (apply IZR_lt; lia). assert (HN : (0 < IZR n)%R) by (apply IZR_lt; lia).
    set (u := (IZR t / IZR nkp)%R). assert (Hu : (0 <= u <= 1)%R).
    { unfold u. split; [apply Rmult_le_pos; [assumption|apply Rlt_le, Rinv_0_lt_compat; assumption]|].
      apply Rmult_le_reg_r with (IZR nkp); [assumption|]. unfold Rdiv. rewrite Rmult_assoc, Rinv_l by lra. lra. }
    unfold x. fold u. replace (s * IZR n + u * ((e - s) * IZR n))%R with (((1 - u) * s + u * e) * IZR n)%R by ring.
    assert (0 <= (1 - u) * s + u * e <= 1)%R by nra. nra. }
  cbv zeta. destruct (Z.leb_spec n (np_round x)); lia.
Qed.
Lemma zlen_segment s e nk : zlen (fst (kpath_segment s e nk)) = Z.max 0 (snd (kpath_segment s e nk)).
Proof.
  destruct s as [[s1 s2] s3], e as [[e1 e2] e3], nk as [[n1 n2] n3]. unfold kpath_segment. cbn [fst snd]. rewrite zlen_map, zlen_arange. lia.
Qed.
Lemma segment_nkp_nonneg s e nk : 0 <= segment_nkp s e nk.
Proof.
  destruct s as [[s1 s2] s3], e as [[e1 e2] e3], nk as [[n1 n2] n3]. unfold segment_nkp.
  match goal with |- 0 <= np_round ?y => set (x := y) end.
  assert (Hx : (0 <= x)%R) by apply sqrt_pos. destruct (archimed x) as [Hu _].
  apply (@np_round_bounds x 0 (up x)). split; [assumption|lra].
Qed.

Theorem segment_on_mesh s e nk k : pos_grid nk -> unit_pt s -> unit_pt e -> In k (fst (kpath_segment s e nk)) -> on_grid nk k.
Proof.
  destruct s as [[s1 s2] s3], e as [[e1 e2] e3], nk as [[n1 n2] n3]. intros (H1 & H2 & H3) (S1 & S2 & S3) (E1 & E2 & E3) Hin.
  unfold kpath_segment in Hin. cbn [fst] in Hin. apply in_map_iff in Hin. destruct Hin as (t & <- & Ht). apply In_arange in Ht.
  unfold on_grid. repeat split; apply segment_index_range; assumption.
Qed.
Lemma build_cons a b ckp nk : build_k_path (a :: b :: ckp) nk =
  (fst (kpath_segment a b nk) ++ fst (build_k_path (b :: ckp) nk), snd (kpath_segment a b nk) :: snd (build_k_path (b :: ckp) nk)).
Proof. change (build_k_path (a :: b :: ckp) nk) with (let '(seg, n) := kpath_segment a b nk in let '(p, ns) := build_k_path (b :: ckp) nk in (seg ++ p, n :: ns)).
  destruct (kpath_segment a b nk), (build_k_path (b :: ckp) nk). reflexivity. Qed.
Theorem path_on_mesh ckp nk : pos_grid nk -> Forall unit_pt ckp ->
  zlen (fst (build_k_path ckp nk)) = zsum (snd (build_k_path ckp nk)) /\ forall k, In k (fst (build_k_path ckp nk)) -> on_grid nk k.
Proof.
  intros Hg. induction ckp as [|a ckp IH]; intros Hf; [split; [reflexivity|intros k []]|].
  inversion Hf as [|? ? Ha Hf']; subst. destruct ckp as [|b ckp]; [split; [reflexivity|intros k []]|].
  specialize (IH Hf'). inversion Hf' as [|? ? Hb _]; subst. rewrite build_cons. cbn [fst snd].
  set (seg := fst (kpath_segment a b nk)) in *. set (n := snd (kpath_segment a b nk)) in *.
  set (p := fst (build_k_path (b :: ckp) nk)) in *. set (ns := snd (build_k_path (b :: ckp) nk)) in *. destruct IH as [IH1 IH2].
  pose proof (zlen_segment a b nk) as Hz. fold seg n in Hz.
  assert (Hn : 0 <= n). { pose proof (segment_nkp_nonneg a b nk) as H. subst n. destruct a as [[? ?] ?], b as [[? ?] ?], nk as [[? ?] ?]. exact H. }
  change (zlen (seg ++ p) = n + zsum ns /\ forall k, In k (seg ++ p) -> on_grid nk k).
  split; [rewrite zlen_app; lia|].
  intros k Hin. apply in_app_or in Hin. destruct Hin as [Hin|Hin]; [|auto].
  now apply (@segment_on_mesh a b nk k Hg Ha Hb).
Qed.
(** corners: a corner that lies on the mesh is visited exactly at the start of its segment *)
Lemma zget_app_l A (l m : list A) i : i < zlen l -> zget (l ++ m) i = zget l i.
Proof. intros H. rewrite zget_app. destruct (Z.ltb_spec i (zlen l)); [reflexivity|lia]. Qed.
Lemma zget_app_r A (l m : list A) i : zlen l <= i -> zget (l ++ m) i = zget m (i - zlen l).
Proof. intros H. rewrite zget_app. destruct (Z.ltb_spec i (zlen l)); [lia|reflexivity]. Qed.
Theorem segment_starts_at_corner a b nk c : pos_grid nk -> corner_at nk c a -> 0 < snd (kpath_segment a b nk) ->
  zget (fst (kpath_segment a b nk)) 0 = Some (wrap_pt nk c).
Proof.
  destruct nk as [[n1 n2] n3], a as [[s1 s2] s3], c as [[c1 c2] c3].
  intros (H1 & H2 & H3) ((E1 & E2 & E3) & B1 & B2 & B3) Hp. destruct b as [[e1 e2] e3]. unfold kpath_segment in *. cbn [fst snd wrap_pt] in *.
  rewrite zget_map, zget_arange by lia. cbn [option_map].
  assert (G : forall s e n c nkp, 0 < n -> (s * IZR n = IZR c)%R -> 0 <= c <= n -> segment_index s e n nkp (0 + 0) = c mod n).
  { intros s e n c nkp Hn Hs Hc. unfold segment_index. replace (0 + 0) with 0 by lia.
    replace (s * IZR n + 0 / IZR nkp * ((e - s) * IZR n))%R with (IZR c) by (rewrite <- Hs; unfold Rdiv; ring).
    cbv zeta. rewrite np_round_int. destruct (Z.leb_spec n c).
    - replace c with n by lia. rewrite Z.mod_same by lia. lia.
    - rewrite Z.mod_small by lia. reflexivity. }
  do 2 f_equal; [f_equal|]; apply G; assumption.
Qed.
(** The i-th corner of the path sits at the sum of the lengths of the first i segments. *)
Theorem path_corner_position pre a b post nk c : pos_grid nk -> corner_at nk c a -> Forall unit_pt (pre ++ [a]) -> 0 < snd (kpath_segment a b nk) ->
  zget (fst (build_k_path (pre ++ a :: b :: post) nk)) (zsum (snd (build_k_path (pre ++ [a]) nk))) = Some (wrap_pt nk c).
Proof.
  intros Hg Hc Hu Hp. induction pre as [|x pre IH].
  - cbn [app]. rewrite build_cons. cbn [fst]. change (snd (build_k_path [a] nk)) with (@nil Z). change (zsum []) with 0.
    pose proof (@segment_starts_at_corner a b nk c Hg Hc Hp) as H. rewrite zget_app_l; [assumption|]. exact (proj2 (zget_some_range _ _ H)).
  - assert (Hu' : Forall unit_pt (pre ++ [a])) by now inversion Hu. specialize (IH Hu').
    destruct pre as [|y pre].
    + cbn [app] in *. rewrite !build_cons. cbn [fst snd]. rewrite build_cons in IH. cbn [fst snd] in IH.
      change (snd (build_k_path [a] nk)) with (@nil Z) in *. change (zsum []) with 0 in *. cbn [zsum fold_right].
      pose proof (zlen_segment x a nk) as Hz. pose proof (segment_nkp_nonneg x a nk) as Hn.
      assert (En : snd (kpath_segment x a nk) = segment_nkp x a nk) by (destruct x as [[? ?] ?], a as [[? ?] ?], nk as [[? ?] ?]; reflexivity).
      rewrite zget_app_r by lia. rewrite <- IH. f_equal; lia.
    + cbn [app] in *. rewrite !build_cons. cbn [fst snd].
      change (zsum (snd (kpath_segment x y nk) :: snd (build_k_path (y :: pre ++ [a]) nk))) with (snd (kpath_segment x y nk) + zsum (snd (build_k_path (y :: pre ++ [a]) nk))).
      pose proof (zlen_segment x y nk) as Hz. pose proof (segment_nkp_nonneg x y nk) as Hn.
      assert (En : snd (kpath_segment x y nk) = segment_nkp x y nk) by (destruct x as [[? ?] ?], y as [[? ?] ?], nk as [[? ?] ?]; reflexivity).
      assert (Hs : 0 <= zsum (snd (build_k_path (y :: pre ++ [a]) nk))) by exact (proj1 (zget_some_range _ _ IH)).
      rewrite zget_app_r by lia. rewrite <- IH. f_equal; lia.
Qed.

(** physical coordinates *)
Lemma zget_k_axis n i : 0 <= i < n -> zget (k_axis n) i = Some (k_axis_val n i).
Proof. intros H. unfold k_axis. rewrite zget_map, zget_arange by lia. cbn [option_map]. do 2 f_equal; lia. Qed.
Lemma zlen_k_axis n : 0 <= n -> zlen (k_axis n) = n.
Proof. intros. unfold k_axis. rewrite zlen_map, zlen_arange. lia. Qed.
Lemma take_axis n idx : (forall i, In i idx -> 0 <= i < n) -> take (k_axis n) idx = Ok (map (k_axis_val n) idx).
Proof.
  intros H. apply mapM_total. intros i Hi. apply py_get_nonneg; [specialize (H i Hi); lia|]. apply zget_k_axis. auto.
Qed.
Theorem kpath_val_isotropic n kpts : (forall k, In k kpts -> on_grid (n, n, n) k) ->
  get_kpath_val (n, n, n) kpts = Ok (map (fun k => k_axis_val n (fst (fst k))) kpts, map (fun k => k_axis_val n (snd (fst k))) kpts, map (fun k => k_axis_val n (snd k)) kpts).
Proof.
  intros H. unfold get_kpath_val. rewrite !take_axis.
  - cbn [bind]. now rewrite !map_map.
  - intros i Hi. apply in_map_iff in Hi. destruct Hi as (k & <- & Hk). specialize (H k Hk). destruct k as [[x y] z]. cbn in *. lia.
  - intros i Hi. apply in_map_iff in Hi. destruct Hi as (k & <- & Hk). specialize (H k Hk). destruct k as [[x y] z]. cbn in *. lia.
  - intros i Hi. apply in_map_iff in Hi. destruct Hi as (k & <- & Hk). specialize (H k Hk). destruct k as [[x y] z]. cbn in *. lia.
Qed.
(** on an anisotropic mesh the y coordinate is taken from the x axis *)
Theorem kpath_val_anisotropic_wrong n1 n2 n3 x y z : 0 <= x < n1 -> 0 < y < n2 -> y < n1 -> 0 <= z < n3 -> z < n1 -> n1 <> n2 ->
  exists kx ky kz, get_kpath_val (n1, n2, n3) [(x, y, z)] = Ok ([kx], [ky], [kz]) /\ ky <> k_axis_val n2 y.
Proof.
  intros Hx Hy Hy1 Hz Hz1 Hne. unfold get_kpath_val. rewrite !take_axis by (cbn; intros i [<-|[]]; lia). cbn [bind map fst snd].
  do 3 eexists. split; [reflexivity|]. unfold k_axis_val. intros E.
  assert (P := PI_RGT_0). assert (N1 : (0 < IZR n1)%R) by (apply IZR_lt; lia). assert (N2 : (0 < IZR n2)%R) by (apply IZR_lt; lia).
  assert (Y : (0 < IZR y)%R) by (apply IZR_lt; lia). apply Hne. apply eq_IZR.
  assert (E2 : (2 * PI * IZR y * IZR n2 = 2 * PI * IZR y * IZR n1)%R).
  { apply (f_equal (fun r => r * IZR n1 * IZR n2)%R) in E. unfold Rdiv in E.
    replace (2 * PI * IZR y * / IZR n1 * IZR n1 * IZR n2)%R with (2 * PI * IZR y * IZR n2)%R in E by (field; lra).
    replace (2 * PI * IZR y * / IZR n2 * IZR n1 * IZR n2)%R with (2 * PI * IZR y * IZR n1)%R in E by (field; lra). exact E. }
  apply Rmult_eq_reg_l in E2; [now symmetry|]. assert (0 < 2 * PI * IZR y)%R by (apply Rmult_lt_0_compat; [lra|assumption]). lra.
Qed.
Theorem kpath_val_anisotropic_raises n1 n2 n3 x y z : 0 <= x < n1 -> n1 <= y < n2 -> get_kpath_val (n1, n2, n3) [(x, y, z)] = Raise IndexError.
Proof.
  intros Hx Hy. unfold get_kpath_val. rewrite take_axis by (cbn; intros i [<-|[]]; lia). cbn [bind map fst snd].
  unfold take at 1. cbn [mapM]. rewrite py_get_out by (rewrite zlen_k_axis; lia). reflexivity.
Qed.

(** argmin *)
Lemma argmin_from_spec l : forall best ib i,
  (forall j x, zget l j = Some x -> (best <= x)%R) -> argmin_from best ib i l = ib.
Proof.
  induction l as [|x l IH]; intros best ib i H; [reflexivity|]. cbn [argmin_from].
  pose proof (H 0 x (zget_cons_0 _ _)). destruct (Rlt_dec x best); [lra|]. apply IH. intros j y Hj. apply (H (j + 1)). rewrite zget_cons.
  pose proof (zget_some_range _ _ Hj). destruct (Z.eqb_spec (j + 1) 0); [lia|]. replace (j + 1 - 1) with j by lia. assumption.
Qed.
Lemma argmin_from_found l : forall best ib i k v, zget l k = Some v -> (v < best)%R ->
  (forall j x, zget l j = Some x -> j <> k -> (v < x)%R) -> argmin_from best ib i l = i + k.
Proof.
  induction l as [|x l IH]; intros best ib i k v Hk Hv Hu; [now rewrite zget_nil in Hk|]. cbn [argmin_from].
  rewrite zget_cons in Hk. destruct (Z.eqb_spec k 0) as [->|Hk0].
  - injection Hk as <-. destruct (Rlt_dec x best); [|lra]. rewrite argmin_from_spec; [lia|].
    intros j y Hj. apply Rlt_le. apply (Hu (j + 1)); [|pose proof (zget_some_range _ _ Hj); lia]. rewrite zget_cons.
    pose proof (zget_some_range _ _ Hj). destruct (Z.eqb_spec (j + 1) 0); [lia|]. replace (j + 1 - 1) with j by lia. assumption.
  - assert (Hx : (v < x)%R) by (apply (Hu 0); [apply zget_cons_0|lia]).
    assert (G : forall b i', (v < b)%R -> argmin_from b i' (i + 1) l = i + 1 + (k - 1)).
    { intros b i' Hb. apply IH with (v := v); [assumption|assumption|]. intros j y Hj Hne. apply (Hu (j + 1)); [|lia]. rewrite zget_cons.
      pose proof (zget_some_range _ _ Hj). destruct (Z.eqb_spec (j + 1) 0); [lia|]. replace (j + 1 - 1) with j by lia. assumption. }
    destruct (Rlt_dec x best); rewrite G by assumption; lia.
Qed.
Theorem find_q_on_grid n i : 0 <= i < n -> find_q_ind_1 n (k_axis_val n i) = i.
Proof.
  intros Hi. unfold find_q_ind_1.
  assert (G : forall j, 0 <= j < n -> zget (map (fun k => Rabs (k - k_axis_val n i)) (k_axis n)) j = Some (Rabs (k_axis_val n j - k_axis_val n i))).
  { intros j Hj. now rewrite zget_map, zget_k_axis by assumption. }
  assert (L : zlen (map (fun k => Rabs (k - k_axis_val n i)) (k_axis n)) = n) by (rewrite zlen_map, zlen_k_axis; lia).
  set (l := map (fun k => Rabs (k - k_axis_val n i)) (k_axis n)) in *.
  assert (Hi0 : zget l i = Some 0%R) by (rewrite G by assumption; f_equal; rewrite Rminus_diag_eq by reflexivity; apply Rabs_R0).
  assert (Hpos : forall j x, zget l j = Some x -> j <> i -> (0 < x)%R).
  { intros j x Hj Hne. pose proof (zget_some_range _ _ Hj). rewrite G in Hj by lia. injection Hj as <-. apply Rabs_pos_lt.
    unfold k_axis_val. intros E. apply Hne. apply eq_IZR. assert (P := PI_RGT_0). assert (N : (0 < IZR n)%R) by (apply IZR_lt; lia).
    apply Rminus_diag_uniq in E. unfold Rdiv in E. apply Rmult_eq_reg_r in E; [|apply Rinv_neq_0_compat; lra]. apply Rmult_eq_reg_l in E; lra. }
  unfold argmin. clearbody l. clear G. destruct l as [|x l]; [rewrite zlen_nil in L; lia|].
  destruct (Z.eq_dec i 0) as [->|Hne].
  - rewrite zget_cons_0 in Hi0. injection Hi0 as ->. apply argmin_from_spec. intros j y Hj. apply Rlt_le. apply (Hpos (j + 1)); [|pose proof (zget_some_range _ _ Hj); lia].
    rewrite zget_cons. pose proof (zget_some_range _ _ Hj). destruct (Z.eqb_spec (j + 1) 0); [lia|]. now replace (j + 1 - 1) with j by lia.
  - rewrite (@argmin_from_found l x 0 1 (i - 1) 0%R); [lia| | |].
    + rewrite zget_cons in Hi0. destruct (Z.eqb_spec i 0); [lia|assumption].
    + apply (Hpos 0); [apply zget_cons_0|lia].
    + intros j y Hj Hj'. apply (Hpos (j + 1)); [|lia]. rewrite zget_cons. pose proof (zget_some_range _ _ Hj). destruct (Z.eqb_spec (j + 1) 0); [lia|]. now replace (j + 1 - 1) with j by lia.
Qed.
From Verif Require Import Spec.BZSpec Model.BrillouinZone.
Theorem shift_by_q_on_mesh A (m : list (list (list A))) nx ny nz i j l : on_mesh nx ny nz (i, j, l) ->
  shift_mat_by_q (nx, ny, nz) m (2 * PI * IZR i / IZR nx, 2 * PI * IZR j / IZR ny, 2 * PI * IZR l / IZR nz)%R = shift_mat_by_ind m i j l.
Proof.
  intros (H1 & H2 & H3). unfold shift_mat_by_q. pose proof (find_q_on_grid H1) as E1. pose proof (find_q_on_grid H2) as E2. pose proof (find_q_on_grid H3) as E3.
  unfold k_axis_val in *. now rewrite E1, E2, E3.
Qed.

(** argmin returns a minimiser *)
Lemma argmin_from_min l : forall best ib i, let r := argmin_from best ib i l in
  (r = ib /\ (forall j x, zget l j = Some x -> (best <= x)%R)) \/
  (exists v, i <= r < i + zlen l /\ zget l (r - i) = Some v /\ (v <= best)%R /\ forall j x, zget l j = Some x -> (v <= x)%R).
Proof.
  induction l as [|x l IH]; intros best ib i; cbn zeta; cbn [argmin_from].
  - left. split; [reflexivity|]. intros j y Hj. now rewrite zget_nil in Hj.
  - rewrite zlen_cons. pose proof (zlen_nonneg l) as Hn. destruct (Rlt_dec x best) as [Hlt|Hge].
    + right. destruct (IH x i (i + 1)) as [(-> & H)|(v & Hr & Hv & Hb & H)].
      * exists x. split; [lia|]. rewrite Z.sub_diag, zget_cons_0. split; [reflexivity|]. split; [lra|]. intros j y Hj.
        rewrite zget_cons in Hj. destruct (Z.eqb_spec j 0); [injection Hj as <-; lra|eauto].
      * exists v. split; [lia|]. split; [rewrite zget_cons; destruct (Z.eqb_spec (argmin_from x i (i + 1) l - i) 0); [lia|]; rewrite <- Hv; f_equal; lia|].
        split; [lra|]. intros j y Hj. rewrite zget_cons in Hj. destruct (Z.eqb_spec j 0); [injection Hj as <-; lra|eauto].
    + destruct (IH best ib (i + 1)) as [(-> & H)|(v & Hr & Hv & Hb & H)].
      * left. split; [reflexivity|]. intros j y Hj. rewrite zget_cons in Hj. destruct (Z.eqb_spec j 0); [injection Hj as <-; lra|eauto].
      * right. exists v. split; [lia|]. split; [rewrite zget_cons; destruct (Z.eqb_spec (argmin_from best ib (i + 1) l - i) 0); [lia|]; rewrite <- Hv; f_equal; lia|].
        split; [lra|]. intros j y Hj. rewrite zget_cons in Hj. destruct (Z.eqb_spec j 0); [injection Hj as <-; lra|eauto].
Qed.
Lemma argmin_min l : l <> [] -> exists v, zget l (argmin l) = Some v /\ forall j x, zget l j = Some x -> (v <= x)%R.
Proof.
  destruct l as [|x l]; [congruence|intros _]. unfold argmin. destruct (argmin_from_min l x 0 1) as [(-> & H)|(v & Hr & Hv & Hb & H)].
  - exists x. split; [apply zget_cons_0|]. intros j y Hj. rewrite zget_cons in Hj. destruct (Z.eqb_spec j 0); [injection Hj as <-; lra|eauto].
  - exists v. split; [rewrite zget_cons; destruct (Z.eqb_spec (argmin_from x 0 1 l) 0); [lia|assumption]|].
    intros j y Hj. rewrite zget_cons in Hj. destruct (Z.eqb_spec j 0); [injection Hj as <-; lra|eauto].
Qed.
Theorem find_q_nearest n q : 0 < n -> 0 <= find_q_ind_1 n q < n /\
  forall j, 0 <= j < n -> (Rabs (2 * PI * IZR (find_q_ind_1 n q) / IZR n - q) <= Rabs (2 * PI * IZR j / IZR n - q))%R.
Proof.
  intros Hn. unfold find_q_ind_1. set (l := map (fun k => Rabs (k - q)) (k_axis n)).
  assert (L : zlen l = n) by (unfold l; rewrite zlen_map, zlen_k_axis; lia).
  assert (G : forall j, 0 <= j < n -> zget l j = Some (Rabs (k_axis_val n j - q))) by (intros j Hj; unfold l; now rewrite zget_map, zget_k_axis by assumption).
  assert (Hne : l <> []) by (intros H; rewrite H, zlen_nil in L; lia).
  destruct (argmin_min Hne) as (v & Hv & Hm). pose proof (zget_some_range _ _ Hv) as Hr. rewrite L in Hr. split; [assumption|].
  intros j Hj. rewrite (G _ Hr) in Hv. injection Hv as Hv. specialize (Hm j _ (G j Hj)). unfold k_axis_val in *. lra.
Qed.
Theorem find_q_2pi n : 1 < n -> find_q_ind_1 n (2 * PI)%R = n - 1.
Proof.
  intros Hn. destruct (@find_q_nearest n (2 * PI)%R) as (Hr & H); [lia|]. specialize (H (n - 1) ltac:(lia)).
  set (r := find_q_ind_1 n (2 * PI)) in *. assert (P := PI_RGT_0). assert (N : (0 < IZR n)%R) by (apply IZR_lt; lia).
  assert (E : forall j, j < n -> Rabs (2 * PI * IZR j / IZR n - 2 * PI) = (2 * PI * (IZR n - IZR j) / IZR n)%R).
  { intros j Hj. assert (IZR j < IZR n)%R by now apply IZR_lt. rewrite Rabs_left1; [field; lra|].
    replace (2 * PI * IZR j / IZR n - 2 * PI)%R with (- (2 * PI * (IZR n - IZR j) / IZR n))%R by (field; lra).
    apply Ropp_le_cancel. rewrite Ropp_0, Ropp_involutive. apply Rmult_le_pos; [apply Rmult_le_pos; lra|apply Rlt_le, Rinv_0_lt_compat; lra]. }
  rewrite !E in H by lia.
  assert (H' : (IZR n - IZR r <= IZR n - IZR (n - 1))%R).
  { apply Rmult_le_reg_l with (2 * PI)%R; [lra|]. apply Rmult_le_reg_r with (/ IZR n)%R; [now apply Rinv_0_lt_compat|]. exact H. }
  assert (H2 : (IZR (n - 1) <= IZR r)%R) by lra. apply le_IZR in H2. lia.
Qed.
Lemma zget_cumsum_aux l : forall a i, 0 <= i < zlen l -> zget (cumsum_from a l) i = Some (a + zsum (firstn (Z.to_nat (i + 1)) l)).
Proof.
  induction l as [|x l IH]; intros a i Hi; [rewrite zlen_nil in Hi; lia|]. rewrite zlen_cons in Hi. cbn [cumsum_from]. rewrite zget_cons.
  replace (Z.to_nat (i + 1)) with (S (Z.to_nat i)) by lia. cbn [firstn zsum fold_right]. fold (zsum (firstn (Z.to_nat i) l)).
  destruct (Z.eqb_spec i 0) as [->|Hne]; [cbn; f_equal; lia|]. rewrite IH by lia. replace (Z.to_nat (i - 1 + 1)) with (Z.to_nat i) by lia. f_equal; lia.
Qed.
Theorem cind_off_by_one nkp i : 0 <= i < zlen nkp -> zget (cind nkp) (i + 1) = Some (zsum (firstn (Z.to_nat (i + 1)) nkp) - 1).
Proof.
  intros Hi. unfold cind. rewrite zget_cons. destruct (Z.eqb_spec (i + 1) 0); [lia|]. replace (i + 1 - 1) with i by lia.
  rewrite zget_map. unfold cumsum. rewrite zget_cumsum_aux by assumption. reflexivity.
Qed.
