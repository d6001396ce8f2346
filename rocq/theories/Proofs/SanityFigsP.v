(** Proofs for C117. *)
From Coq Require Import ZArith Reals List Lia Lra.
From Verif Require Import Base.PyBase Base.PyFacts Base.Arr Model.Matsubara Model.KPath Model.MaxEnt Model.RealMesh Model.SwkAnalysis Model.SanityFigs Spec.ShownKSpec Spec.SwkSpec Spec.LogChecksSpec Spec.SanityFigsSpec.
From Verif Require Import Proofs.MatsubaraP Proofs.KPathP Proofs.ShownKP Proofs.RealMeshP Proofs.BrillouinZoneP.
Import ListNotations.
Local Open Scope R_scope.

Lemma mapM_at A B (f : A -> res B) (l : list A) n (g : Z -> B) : zlen l = n -> (forall i, (0 <= i < n)%Z -> exists a, zget l i = Some a /\ f a = Ok (g i)) ->
  exists r, mapM f l = Ok r /\ zlen r = n /\ forall i, (0 <= i < n)%Z -> zget r i = Some (g i).
Proof.
  intros L H. destruct (@mapM_build A B f l) as [r E].
  - intros x I. destruct (@In_zget _ l x I) as (i & Ri & Ei). destruct (H i ltac:(lia)) as (a & Ea & F). rewrite Ei in Ea. inversion Ea. subst. eauto.
  - exists r. split; [assumption|]. destruct (@mapM_zget A B f l r E) as [Lr G]. split; [lia|]. intros i Ri. destruct (H i Ri) as (a & Ea & F). destruct (G i a Ea) as (b & Eb & F'). congruence.
Qed.
Lemma plot_ok x y n (fx fy : Z -> R) : zlen x = n -> zlen y = n -> (forall i, (0 <= i < n)%Z -> zget x i = Some (fx i)) -> (forall i, (0 <= i < n)%Z -> zget y i = Some (fy i)) ->
  exists c, plot_xy x y = Ok c /\ curve_of c n fx fy.
Proof.
  intros Lx Ly X Y. unfold plot_xy. rewrite Lx, Ly, Z.eqb_refl. eexists. split; [reflexivity|]. split.
  - rewrite zlen_combine. lia.
  - intros i Ri. rewrite zget_combine, (X i Ri), (Y i Ri). reflexivity.
Qed.
Lemma mom_inj n i j : (0 < n)%Z -> mom n i = mom n j -> i = j.
Proof.
  intros P E. unfold mom in E. assert (N : 0 < IZR n) by now apply IZR_lt. assert (Hp := PI_RGT_0). apply eq_IZR.
  unfold Rdiv in E. apply Rmult_eq_reg_r in E; [|apply Rinv_neq_0_compat; lra]. apply Rmult_eq_reg_l in E; lra.
Qed.
Lemma pick_one A (n : Z) : (0 < n)%Z -> forall (l : list (list A)) a i, (0 <= a <= i)%Z -> (i < a + zlen l)%Z ->
  Some (concat (map2 (fun ky c => if Req_EM_T (mom n i) ky then c else []) (map (k_axis_val n) (arange a (a + zlen l))) l)) = zget l (i - a).
Proof.
  intros P. assert (No : forall (l : list (list A)) a i, (i < a)%Z -> concat (map2 (fun ky c => if Req_EM_T (mom n i) ky then c else []) (map (k_axis_val n) (arange a (a + zlen l))) l) = []).
  { induction l as [|c l IH]; intros a i L. { rewrite arange_empty by (rewrite zlen_nil; lia). reflexivity. }
    rewrite zlen_cons. pose proof (zlen_nonneg l). rewrite arange_cons by lia. cbn [map map2 concat]. destruct (Req_EM_T _ _) as [Q|Q].
    - change (mom n i = mom n a) in Q. apply mom_inj in Q; [lia|assumption].
    - replace (a + (1 + zlen l))%Z with (a + 1 + zlen l)%Z by lia. cbn [app]. apply IH. lia. }
  induction l as [|c l IH]; intros a i R1 R2. { rewrite zlen_nil in R2. lia. }
  rewrite zlen_cons in *. pose proof (zlen_nonneg l). rewrite arange_cons by lia. cbn [map map2 concat]. replace (a + (1 + zlen l))%Z with (a + 1 + zlen l)%Z by lia. rewrite zget_cons. destruct (Req_EM_T _ _) as [Q|Q].
  - change (mom n i = mom n a) in Q. apply mom_inj in Q; [|assumption]. subst. rewrite Z.sub_diag. cbn [Z.eqb]. rewrite (No l (a + 1)%Z a) by lia. now rewrite app_nil_r.
  - destruct (Z.eqb_spec (i - a) 0) as [Z0|Z0]. { exfalso. apply Q. change (mom n i = mom n a). f_equal. lia. }
    cbn [app]. replace (i - a - 1)%Z with (i - (a + 1))%Z by lia. apply IH; lia.
Qed.

Section Oz.
Variables (f : R -> R -> R -> R) (n1 n2 n3 : Z) (m : list (list (list R))).
Hypothesis (Hs : samples3 f n1 n2 n3 m) (P1 : (0 < n1)%Z) (P2 : (0 < n2)%Z) (P3 : (0 < n3)%Z).
Lemma plane_at i : (0 <= i < n1)%Z -> exists p, zget m i = Some p /\ shape2 p n2 n3 /\ forall j, (0 <= j < n2)%Z -> exists c, zget p j = Some c /\ zlen c = n3 /\ forall l, (0 <= l < n3)%Z -> zget c l = Some (f (mom n1 i) (mom n2 j) (mom n3 l)).
Proof.
  intros Ri. destruct Hs as [[L Sh] V]. destruct (@zget_in_range _ m i ltac:(lia)) as [p E]. exists p. split; [assumption|]. pose proof (Sh p (zget_In _ _ E)) as Sp. split; [assumption|]. destruct Sp as [Lp Sc].
  intros j Rj. destruct (@zget_in_range _ p j ltac:(lia)) as [c Ec]. exists c. split; [assumption|]. split; [now apply Sc; apply zget_In with j|].
  intros l Rl. specialize (V i j l Ri Rj Rl). unfold get3, get2 in V. rewrite E in V. cbn in V. rewrite Ec in V. exact V.
Qed.
Lemma diag_vals : n1 = n2 -> shape2 (map2 (fun kx p => concat (map2 (fun ky c => if Req_EM_T kx ky then c else []) (k_axis n2) p)) (k_axis n1) m) n1 n3 /\
  forall i l, (0 <= i < n1)%Z -> (0 <= l < n3)%Z -> get2 (map2 (fun kx p => concat (map2 (fun ky c => if Req_EM_T kx ky then c else []) (k_axis n2) p)) (k_axis n1) m) i l = Some (f (mom n1 i) (mom n1 i) (mom n3 l)).
Proof.
  intros E12. assert (Lm : zlen m = n1) by (destruct Hs as [[L _] _]; exact L).
  set (g := fun (kx : R) (p : list (list R)) => concat (map2 (fun ky c => if Req_EM_T kx ky then c else []) (k_axis n2) p)).
  assert (Row : forall i, (0 <= i < n1)%Z -> exists c, zget (map2 g (k_axis n1) m) i = Some c /\ zlen c = n3 /\ forall l, (0 <= l < n3)%Z -> zget c l = Some (f (mom n1 i) (mom n1 i) (mom n3 l))).
  { intros i Ri. destruct (plane_at i Ri) as (p & Ep & [Lp _] & V). destruct (V i ltac:(lia)) as (c & Ec & Lc & Vc). exists c. split; [|split; [assumption|intros l Rl; rewrite (Vc l Rl), E12; reflexivity]].
    rewrite zget_map2, (@zget_k_axis n1 i Ri), Ep. unfold g. change (k_axis_val n1 i) with (mom n1 i).
    pose proof (@pick_one R n2 P2 p 0%Z i ltac:(lia) ltac:(lia)) as Q. rewrite Z.sub_0_r, Z.add_0_l, Lp, Ec in Q. unfold k_axis. rewrite E12. exact Q. }
  assert (Lr : zlen (map2 g (k_axis n1) m) = n1) by (rewrite zlen_map2, zlen_k_axis by lia; lia). split.
  - split; [assumption|]. intros r I. destruct (@In_zget _ _ r I) as (i & Ri & Ei). destruct (Row i ltac:(lia)) as (c & Ec & Lc & _). congruence.
  - intros i l Ri Rl. destruct (Row i Ri) as (c & Ec & _ & Vc). unfold get2. rewrite Ec. cbn. auto.
Qed.
Lemma oz_ok : n1 = n2 -> exists p, oz_data n1 n2 m = Ok p /\
  curve_of (oz_y p) n1 (mom n1) (fun i => f (mom n1 i) (mom n2 (n2 / 2)) 0) /\
  curve_of (oz_x p) n2 (mom n2) (fun j => f (mom n1 (n1 / 2)) (mom n2 j) 0) /\
  curve_of (oz_diag p) (n1 * n3) (fun k => IZR k * (2 * PI / IZR (n1 * n3 - 1))) (fun k => f (mom n1 (k / n3)) (mom n1 (k / n3)) (mom n3 (k mod n3))).
Proof.
  intros E12. assert (Lm : zlen m = n1) by (destruct Hs as [[L _] _]; exact L). unfold oz_data.
  assert (M0 : mom n3 0 = 0) by (unfold mom, Rdiv; ring).
  assert (Ax : forall n i, (0 <= i < n)%Z -> zget (k_axis n) i = Some (mom n i)) by (intros n i Ri; exact (@zget_k_axis n i Ri)).
  assert (H1 : (0 <= n1 / 2 < n1)%Z) by (split; [apply Z.div_pos; lia|apply Z.div_lt_upper_bound; lia]).
  assert (H2 : (0 <= n2 / 2 < n2)%Z) by (split; [apply Z.div_pos; lia|apply Z.div_lt_upper_bound; lia]).
  destruct (@mapM_at _ _ (fun p => let! c := py_get p (n2 / 2) in py_get c 0) m n1 (fun i => f (mom n1 i) (mom n2 (n2 / 2)) 0) Lm) as (y & Ey & Ly & Vy).
  { intros i Ri. destruct (plane_at i Ri) as (p & Ep & _ & V). exists p. split; [assumption|]. destruct (V (n2 / 2)%Z H2) as (c & Ec & _ & Vc). rewrite (@py_get_nonneg _ p _ _ (proj1 H2) Ec). cbn [bind]. rewrite <- M0. apply py_get_nonneg; [lia|]. apply Vc. lia. }
  rewrite Ey. cbn [bind]. destruct (@plot_ok (k_axis n1) y n1 (mom n1) (fun i => f (mom n1 i) (mom n2 (n2 / 2)) 0) (@zlen_k_axis n1 ltac:(lia)) Ly (Ax n1) Vy) as (ca & Eca & Ca). rewrite Eca. cbn [bind].
  destruct (plane_at (n1 / 2)%Z H1) as (p & Ep & [Lp _] & V). rewrite (@py_get_nonneg _ m _ _ (proj1 H1) Ep). cbn [bind].
  destruct (@mapM_at _ _ (fun c : list R => py_get c 0) p n2 (fun j => f (mom n1 (n1 / 2)) (mom n2 j) 0) Lp) as (y2 & Ey2 & Ly2 & Vy2).
  { intros j Rj. destruct (V j Rj) as (c & Ec & _ & Vc). exists c. split; [assumption|]. rewrite <- M0. apply py_get_nonneg; [lia|]. apply Vc. lia. }
  rewrite Ey2. cbn [bind]. destruct (@plot_ok (k_axis n2) y2 n2 (mom n2) (fun j => f (mom n1 (n1 / 2)) (mom n2 j) 0) (@zlen_k_axis n2 ltac:(lia)) Ly2 (Ax n2) Vy2) as (cb & Ecb & Cb). rewrite Ecb. cbn [bind].
  destruct (diag_vals E12) as [Sd Vd]. assert (Ld : zlen (masked n1 n2 m) = (n1 * n3)%Z).
  { unfold masked. exact (@zlen_concat _ _ n1 n3 Sd). }
  rewrite Ld. rewrite linspace_ok by nia. cbn [bind].
  destruct (@plot_ok (map (fun i => 0 + IZR i * ((2 * PI - 0) / IZR (n1 * n3 - 1))) (arange 0 (n1 * n3))) (masked n1 n2 m) (n1 * n3) (fun k => IZR k * (2 * PI / IZR (n1 * n3 - 1))) (fun k => f (mom n1 (k / n3)) (mom n1 (k / n3)) (mom n3 (k mod n3)))) as (cd & Ecd & Cd).
  - rewrite zlen_map, zlen_arange. nia.
  - assumption.
  - intros k Rk. rewrite zget_map, zget_arange by lia. cbn [option_map]. f_equal. rewrite Z.add_0_l, Rminus_0_r, Rplus_0_l. reflexivity.
  - intros k Rk. pose proof (Z.mod_pos_bound k n3 P3) as B. pose proof (Z.div_mod k n3 ltac:(lia)) as D. assert (Q : (0 <= k / n3 < n1)%Z) by (split; [apply Z.div_pos; lia|apply Z.div_lt_upper_bound; nia]).
    unfold masked. pose proof (@zget_concat _ _ n1 n3 (k / n3) (k mod n3) Sd Q B) as G. replace (k / n3 * n3 + k mod n3)%Z with k in G by lia. rewrite G. apply Vd; assumption.
  - rewrite Ecd. cbn [bind]. eexists. split; [reflexivity|]. cbn. auto.
Qed.
End Oz.

(** the local self-energies *)
Lemma half n : (2 * n / 2 = n)%Z.
Proof. replace (2 * n)%Z with (n * 2)%Z by lia. apply Z.div_mul. lia. Qed.
Section Sigma.
Variables (siw : list C) (n : Z) (f : Z -> R * R).
Hypothesis (H : vgrid siw n f).
Lemma v_axis : (0 <= n)%Z -> zlen (map IZR (vn (zlen siw / 2) 0 false)) = (2 * n)%Z /\ forall i, (0 <= i < 2 * n)%Z -> zget (map IZR (vn (zlen siw / 2) 0 false)) i = Some (IZR (i - n)).
Proof.
  intros P. destruct H as [L _]. rewrite L, half. split; [now rewrite zlen_map, zlen_vn|]. intros i Ri. rewrite zget_map, vn_get by lia. cbn. do 2 f_equal. lia.
Qed.
Lemma part_at (g : R * R -> R) i : (0 <= i < 2 * n)%Z -> zget (map g siw) i = Some (g (f (i - n)%Z)).
Proof. intros Ri. destruct H as [_ V]. rewrite zget_map. specialize (V (i - n)%Z ltac:(lia)). replace (n + (i - n))%Z with i in V by lia. unfold C in *. rewrite V. reflexivity. Qed.
Lemma plot_part (g : R * R -> R) : (0 <= n)%Z -> exists c, plot_xy (map IZR (vn (zlen siw / 2) 0 false)) (map g siw) = Ok c /\ curve_of c (2 * n) (fun i => IZR (i - n)) (fun i => g (f (i - n)%Z)).
Proof.
  intros P. destruct (v_axis P) as [L V]. apply plot_ok; auto; [|intros i Ri; now apply part_at]. rewrite zlen_map. apply H.
Qed.
End Sigma.

(** the lines along the Fermi surface *)
Lemma filter_window lo hi a b : (a <= b)%Z -> filter (in_window lo hi) (arange a b) = arange (Z.max lo a) (Z.min hi (b - 1) + 1).
Proof.
  intros H. remember (Z.to_nat (b - a)) as k eqn:K. revert a H K. induction k as [|k IH]; intros a H K.
  - rewrite !arange_empty by lia. reflexivity.
  - rewrite (@arange_cons a b) by lia. cbn [filter]. rewrite IH by lia. unfold in_window. destruct (Z.leb_spec lo a), (Z.leb_spec a hi); cbn [andb].
    + rewrite (@arange_cons (Z.max lo a)) by lia. f_equal; [lia|]. f_equal; lia.
    + rewrite !arange_empty by lia. reflexivity.
    + f_equal; lia.
    + rewrite !arange_empty by lia. reflexivity.
Qed.
Lemma filter_tag A (P : Z -> bool) (F : Z -> A) l : filter (fun p => P (fst p)) (map (fun v => (v, F v)) l) = map (fun v => (v, F v)) (filter P l).
Proof. induction l as [|x l IH]; [reflexivity|]. cbn. destruct (P x); cbn; now rewrite IH. Qed.
Lemma window_ok A lo hi n (F : Z -> A) (c : list A) : (0 <= n)%Z -> vgrid c n F ->
  window_vals lo hi (vn n 0 false) c = Ok (map F (arange (Z.max lo (- n)) (Z.min hi (n - 1) + 1))).
Proof.
  intros P [L V]. unfold window_vals. rewrite zlen_vn, L, Z.eqb_refl by assumption.
  assert (E : combine (vn n 0 false) c = map (fun v => (v, F v)) (vn n 0 false)).
  { apply zget_ext. { rewrite zlen_combine, zlen_map, zlen_vn by assumption. lia. }
    intros i Ri. rewrite zlen_combine, zlen_vn in Ri by assumption. rewrite zget_combine, zget_map, vn_get by lia. cbn. specialize (V (i - n)%Z ltac:(lia)). replace (n + (i - n))%Z with i in V by lia. rewrite V. now rewrite Z.add_0_r. }
  rewrite E, filter_tag, map_map. cbn [snd]. unfold vn. rewrite filter_window by lia. replace (- n + 0)%Z with (- n)%Z by lia. replace (n + 0 - 1)%Z with (n - 1)%Z by lia. reflexivity.
Qed.

Section Along.
Variables (f : Z -> Z -> Z -> Z -> R * R) (n1 n2 n3 n : Z) (m : list (list (list (list (R * R))))).
Hypothesis (Hv : values_v f n1 n2 n3 n m) (P3 : (0 < n3)%Z) (Pn : (0 <= n)%Z).
Lemma column_at i j : (0 <= i < n1)%Z -> (0 <= j < n2)%Z -> exists p r c, py_get m i = Ok p /\ py_get p j = Ok r /\ py_get r 0 = Ok c /\ vgrid c n (f i j 0%Z).
Proof.
  intros Ri Rj. destruct Hv as [[[L S2] S4] V]. destruct (@zget_in_range _ m i ltac:(lia)) as [p Ep]. destruct (S2 p (zget_In _ _ Ep)) as [Lp Sr].
  destruct (@zget_in_range _ p j ltac:(lia)) as [r Er]. pose proof (Sr r (zget_In _ _ Er)) as Lr. destruct (@zget_in_range _ r 0 ltac:(lia)) as [c Ec].
  exists p, r, c. split; [now apply py_get_nonneg|]. split; [now apply py_get_nonneg|]. split; [now apply py_get_nonneg|].
  assert (G : get3 m i j 0 = Some c) by (unfold get3, get2; rewrite Ep; cbn; rewrite Er; exact Ec). split. { now apply (S4 i j 0%Z). }
  intros v Rv. specialize (V i j 0%Z v Ri Rj ltac:(lia) Rv). unfold get4 in V. unfold C in *. rewrite G in V. exact V.
Qed.
Variables (lo hi : Z).
Let a := Z.max lo (- n).
Let b := (Z.min hi (n - 1) + 1)%Z.
Lemma line_ok (part : C -> R) ind : (0 <= fst ind < n1)%Z -> (0 <= snd ind < n2)%Z ->
  exists c, (let! p := py_get m (fst ind) in let! r := py_get p (snd ind) in let! c := py_get r 0 in
    let! y := window_vals lo hi (vn n 0 false) c in plot_xy (map IZR (arange a b)) (map part y)) = Ok c /\
    curve_of c (Z.max 0 (b - a)) (fun k => IZR (a + k)) (fun k => part (f (fst ind) (snd ind) 0%Z (a + k)%Z)).
Proof.
  intros Ri Rj. destruct (@column_at (fst ind) (snd ind) Ri Rj) as (p & r & c & E1 & E2 & E3 & G). rewrite E1. cbn [bind]. rewrite E2. cbn [bind]. rewrite E3. cbn [bind].
  rewrite (@window_ok _ lo hi n (f (fst ind) (snd ind) 0%Z) c Pn G). cbn [bind]. fold a b.
  apply plot_ok.
  - rewrite zlen_map, zlen_arange. lia.
  - rewrite !zlen_map, zlen_arange. lia.
  - intros i R. rewrite zget_map, zget_arange by lia. reflexivity.
  - intros i R. rewrite !zget_map, zget_arange by lia. reflexivity.
Qed.
Lemma lines_ok (part : C -> R) inds : (forall ind, In ind inds -> (0 <= fst ind < n1)%Z /\ (0 <= snd ind < n2)%Z) ->
  exists cs, mapM (fun ind => let! p := py_get m (fst ind) in let! r := py_get p (snd ind) in let! c := py_get r 0 in
    let! y := window_vals lo hi (vn n 0 false) c in plot_xy (map IZR (arange a b)) (map part y)) inds = Ok cs /\ zlen cs = zlen inds /\
    forall t i j, zget inds t = Some (i, j) -> exists c, zget cs t = Some c /\
      curve_of c (Z.max 0 (b - a)) (fun k => IZR (a + k)) (fun k => part (f i j 0%Z (a + k)%Z)).
Proof.
  intros H. destruct (@mapM_build _ _ (fun ind => let! p := py_get m (fst ind) in let! r := py_get p (snd ind) in let! c := py_get r 0 in
    let! y := window_vals lo hi (vn n 0 false) c in plot_xy (map IZR (arange a b)) (map part y)) inds) as [cs E].
  { intros ind I. destruct (H ind I) as [R1 R2]. destruct (@line_ok part ind R1 R2) as (c & Ec & _). eauto. }
  exists cs. split; [assumption|]. destruct (@mapM_zget _ _ _ _ _ E) as [L G]. split; [assumption|]. intros t i j Et.
  destruct (G t (i, j) Et) as (c & Ec & F). exists c. split; [assumption|]. destruct (H _ (zget_In _ _ Et)) as [R1 R2]. destruct (@line_ok part (i, j) R1 R2) as (c' & Ec' & Cc).
  assert (Q : Ok c = Ok c') by (rewrite <- F; exact Ec'). inversion Q. subst c'. exact Cc.
Qed.
Lemma along_gen inds : (hi <> -1)%Z -> (forall ind, In ind inds -> (0 <= fst ind < n1)%Z /\ (0 <= snd ind < n2)%Z) ->
  exists re im, plot_along_ind m (2 * n) inds lo hi = (if Z.ltb 0 (zlen inds) then if Z.ltb a b then Ok (re, im) else Raise IndexError else Raise IndexError) /\
    zlen re = zlen inds /\ zlen im = zlen inds /\
    forall t i j, zget inds t = Some (i, j) -> exists cr ci, zget re t = Some cr /\ zget im t = Some ci /\
      curve_of cr (Z.max 0 (b - a)) (fun k => IZR (a + k)) (fun k => fst (f i j 0%Z (a + k)%Z)) /\
      curve_of ci (Z.max 0 (b - a)) (fun k => IZR (a + k)) (fun k => snd (f i j 0%Z (a + k)%Z)).
Proof.
  intros N H. destruct (@lines_ok fst inds H) as (re & Ere & Lre & Vre). destruct (@lines_ok snd inds H) as (im & Eim & Lim & Vim).
  exists re, im. split; [|split; [assumption|split; [assumption|]]].
  - unfold plot_along_ind. rewrite half. destruct (Z.eqb_spec hi (-1)); [lia|].
    replace (filter (in_window lo hi) (vn n 0 false)) with (arange a b). 2:{ unfold vn. rewrite filter_window by lia. unfold a, b. f_equal; lia. }
    match type of Ere with ?X = _ => match goal with |- context [mapM ?F inds] => change (mapM F inds) with X end end. rewrite Ere. cbn [bind]. destruct (Z.ltb_spec 0 (zlen inds)) as [Q|Q].
    + destruct (@zget_in_range _ re 0 ltac:(lia)) as [c0 E0]. rewrite (@py_get_nonneg _ re 0 c0 ltac:(lia) E0). cbn [bind]. match type of Eim with ?X = _ => match goal with |- context [mapM ?F inds] => change (mapM F inds) with X end end. rewrite Eim. cbn [bind].
      destruct (Z.ltb_spec a b) as [W|W].
      * rewrite arange_cons by lia. reflexivity.
      * rewrite arange_empty by lia. reflexivity.
    + destruct re; [reflexivity|]. rewrite zlen_cons in Lre. pose proof (zlen_nonneg re). lia.
  - intros t i j Et. destruct (Vre t i j Et) as (c & Ec & Cc). destruct (Vim t i j Et) as (d & Ed & Cd). exists c, d. auto.
Qed.
End Along.

Lemma loglog_in (x y : list R) c : plot_xy x y = Ok c -> exists d, loglog_xy x y = Ok d /\ forall p, In p d <-> In p c /\ 0 < fst p /\ 0 < snd p.
Proof.
  intros E. unfold loglog_xy. rewrite E. eexists. split; [reflexivity|]. intros p. rewrite filter_In. destruct (Rlt_dec 0 (fst p)), (Rlt_dec 0 (snd p)); intuition congruence.
Qed.
Lemma loglog_visible (siw : list C) n f (g : R * R -> R) : vgrid siw n f -> (0 <= n)%Z ->
  exists d, loglog_xy (map IZR (vn (zlen siw / 2) 0 false)) (map g siw) = Ok d /\
  forall x y, In (x, y) d <-> exists v, (0 < v < n)%Z /\ x = IZR v /\ y = g (f v) /\ 0 < y.
Proof.
  intros H P. destruct (@plot_part siw n f H g P) as (c & Ec & [Lc Vc]). destruct (@loglog_in _ _ _ Ec) as (d & Ed & I). exists d. split; [assumption|].
  intros x y. rewrite I. cbn [fst snd]. split.
  - intros (J & X & Y). destruct (@In_zget _ c _ J) as (i & Ri & Ei). rewrite Lc in Ri. rewrite (Vc i Ri) in Ei. inversion Ei. subst x y. exists (i - n)%Z. apply lt_IZR in X. repeat split; auto; lia.
  - intros (v & Rv & -> & -> & Y). split; [|split; [apply IZR_lt; lia|assumption]]. specialize (Vc (n + v)%Z ltac:(lia)). replace (n + v - n)%Z with v in Vc by lia. apply zget_In in Vc. exact Vc.
Qed.
Definition panels_of (n : Z) (f : Z -> R * R) (p : sigma_panels) : Prop :=
  curve_of (s_re p) (2 * n) (fun i => IZR (i - n)) (fun i => fst (f (i - n)%Z)) /\
  curve_of (s_im p) (2 * n) (fun i => IZR (i - n)) (fun i => snd (f (i - n)%Z)) /\
  (forall x y, In (x, y) (s_re_log p) <-> exists v, (0 < v < n)%Z /\ x = IZR v /\ y = fst (f v) /\ 0 < y) /\
  (forall x y, In (x, y) (s_im_log p) <-> exists v, (0 < v < n)%Z /\ x = IZR v /\ y = Rabs (snd (f v)) /\ 0 < y).
Definition panel_of (siw : list C) : res sigma_panels :=
    let v := map IZR (vn (zlen siw / 2) 0 false) in
    let! a := plot_xy v (map fst siw) in
    let! b := plot_xy v (map snd siw) in
    let! c := loglog_xy v (map fst siw) in
    let! d := loglog_xy v (map (fun s => Rabs (snd s)) siw) in
    Ok (SigmaPanels a b c d).
Lemma panel_ok siw n f : vgrid siw n f -> (0 <= n)%Z -> exists p, panel_of siw = Ok p /\ panels_of n f p.
Proof.
  intros H P. unfold panel_of. destruct (@plot_part siw n f H fst P) as (a & Ea & Ca). rewrite Ea. cbn [bind]. destruct (@plot_part siw n f H snd P) as (b & Eb & Cb). rewrite Eb. cbn [bind].
  destruct (@loglog_visible siw n f fst H P) as (c & Ec & Vc). rewrite Ec. cbn [bind]. destruct (@loglog_visible siw n f (fun s => Rabs (snd s)) H P) as (d & Ed & Vd). rewrite Ed. cbn [bind].
  eexists. split; [reflexivity|]. repeat split; cbn; try apply Ca; try apply Cb; try apply Vc; try apply Vd.
Qed.
Lemma panel_odd siw : (zlen siw mod 2 = 1)%Z -> panel_of siw = Raise ValueError.
Proof.
  intros H. assert (E : plot_xy (map IZR (vn (zlen siw / 2) 0 false)) (map fst siw) = Raise ValueError).
  { unfold plot_xy. rewrite !zlen_map, zlen_vn by (apply Z.div_pos; [apply zlen_nonneg|lia]).
    unfold C in *. case Z.eqb_spec; intros E; [|reflexivity]. pose proof (Z.div_mod (zlen siw) 2 ltac:(lia)). lia. }
  unfold panel_of. rewrite E. reflexivity.
Qed.
Lemma grid_of (siw : list C) : (zlen siw mod 2 = 0)%Z -> exists f, vgrid siw (zlen siw / 2) f.
Proof.
  intros H. exists (fun v => match zget siw (zlen siw / 2 + v) with Some c => c | None => (0, 0) end). pose proof (Z.div_mod (zlen siw) 2 ltac:(lia)). split; [lia|].
  intros v Rv. destruct (@zget_in_range _ siw (zlen siw / 2 + v) ltac:(lia)) as [c E]. now rewrite E.
Qed.
Lemma mapM_value_error A B (f : A -> res B) l x : (forall y, In y l -> (exists b, f y = Ok b) \/ f y = Raise ValueError) -> In x l -> f x = Raise ValueError -> mapM f l = Raise ValueError.
Proof.
  induction l as [|y l IH]; intros H I E; [destruct I|]. cbn [mapM]. destruct (H y (or_introl eq_refl)) as [[b Eb]|Eb]; rewrite Eb; cbn [bind]; [|reflexivity].
  destruct I as [->|I]; [congruence|]. rewrite IH; auto. intros z Iz. apply H. now right.
Qed.
