(** C92: the Ornstein-Zernicke function. *)
From Coq Require Import Reals List Lia Lra Arith.
From Verif Require Import Base.PyBase Model.Wannier Model.HkFile Model.OzFit Proofs.HkSaveP.
Import ListNotations.
Local Open Scope R_scope.

Lemma oz_nth nx ny nz a xi ix iy iz : (ix < nx)%nat -> (iy < ny)%nat -> (iz < nz)%nat ->
  nth_error (oz_spin_w0 nx ny nz a xi) ((ix * ny + iy) * nz + iz) = Some (oz_at a xi (kaxis nx ix) (kaxis ny iy) (kaxis nz iz)).
Proof. intros. unfold oz_spin_w0. now rewrite mesh_nth. Qed.
Lemma oz_length nx ny nz a xi : length (oz_spin_w0 nx ny nz a xi) = (nx * (ny * nz))%nat.
Proof. apply mesh_len. Qed.
Lemma inv_xi_pos xi : xi <> 0 -> 0 < / (xi ^ 2).
Proof. intros H. apply Rinv_0_lt_compat. rewrite <- Rsqr_pow2. now apply Rsqr_pos_lt. Qed.
Lemma den_pos xi x y z : xi <> 0 -> 0 < / (xi ^ 2) + (x - PI) ^ 2 + (y - PI) ^ 2 + (z - 0) ^ 2.
Proof. intros H. pose proof (inv_xi_pos xi H). pose proof (pow2_ge_0 (x - PI)). pose proof (pow2_ge_0 (y - PI)). pose proof (pow2_ge_0 (z - 0)). lra. Qed.
Lemma oz_pos a xi x y z : 0 < a -> xi <> 0 -> 0 < oz_at a xi x y z.
Proof. intros Ha Hx. unfold oz_at. apply Rdiv_lt_0_compat; [assumption|now apply den_pos]. Qed.
Lemma oz_peak a xi : xi <> 0 -> oz_at a xi PI PI 0 = a * xi ^ 2.
Proof. intros H. unfold oz_at. replace (/ xi ^ 2 + (PI - PI) ^ 2 + (PI - PI) ^ 2 + (0 - 0) ^ 2) with (/ xi ^ 2) by ring. field. assumption. Qed.
Lemma oz_max a xi x y z : 0 < a -> xi <> 0 -> oz_at a xi x y z <= a * xi ^ 2 /\ (oz_at a xi x y z = a * xi ^ 2 -> x = PI /\ y = PI /\ z = 0).
Proof.
  intros Ha Hx. pose proof (den_pos xi x y z Hx) as Hd. pose proof (inv_xi_pos xi Hx) as Hi.
  pose proof (pow2_ge_0 (x - PI)) as P1. pose proof (pow2_ge_0 (y - PI)) as P2. pose proof (pow2_ge_0 (z - 0)) as P3.
  assert (Hsq : 0 < xi ^ 2) by (rewrite <- Rsqr_pow2; now apply Rsqr_pos_lt).
  assert (E : a * xi ^ 2 = a / (/ xi ^ 2)) by (field; assumption). unfold oz_at. rewrite E. split.
  - unfold Rdiv. apply Rmult_le_compat_l; [lra|]. apply Rinv_le_contravar; lra.
  - intros H. unfold Rdiv in H. apply Rmult_eq_reg_l in H; [|lra]. apply (f_equal Rinv) in H. rewrite !Rinv_inv in H. rewrite ?Rinv_inv in Hi.
    assert (F : (x - PI) ^ 2 = 0 /\ (y - PI) ^ 2 = 0 /\ (z - 0) ^ 2 = 0) by lra. destruct F as [F1 [F2 F3]].
    assert (S0 : forall t, t ^ 2 = 0 -> t = 0) by (intros t Ht; rewrite <- Rsqr_pow2 in Ht; now apply Rsqr_0_uniq).
    apply S0 in F1, F2, F3. lra.
Qed.
(** half maximum at distance 1/xi *)
Lemma oz_half a xi x y z : xi <> 0 -> (x - PI) ^ 2 + (y - PI) ^ 2 + z ^ 2 = / (xi ^ 2) -> oz_at a xi x y z = a * xi ^ 2 / 2.
Proof.
  intros H E. unfold oz_at. replace (/ xi ^ 2 + (x - PI) ^ 2 + (y - PI) ^ 2 + (z - 0) ^ 2) with (2 * / xi ^ 2) by (rewrite <- E at 1; ring_simplify; lra). field. assumption.
Qed.
Lemma kaxis_bounds n i : (i < n)%nat -> 0 <= kaxis n i < 2 * PI.
Proof.
  intros H. unfold kaxis. pose proof PI_RGT_0. assert (Hn : 0 < INR n) by (apply lt_0_INR; lia). pose proof (pos_INR i). assert (INR i < INR n) by (now apply lt_INR). split.
  - apply Rmult_le_pos; [nra|]. apply Rlt_le, Rinv_0_lt_compat. assumption.
  - apply Rmult_lt_reg_r with (INR n); [assumption|]. unfold Rdiv. rewrite Rmult_assoc, Rinv_l by lra. nra.
Qed.
Lemma kaxis_refl n i : (0 < i < n)%nat -> kaxis n (n - i) = 2 * PI - kaxis n i.
Proof. intros H. unfold kaxis. rewrite minus_INR by lia. assert (INR n <> 0) by (apply not_0_INR; lia). field. assumption. Qed.
Lemma kaxis_half m : (0 < m)%nat -> kaxis (2 * m) m = PI.
Proof. intros H. unfold kaxis. rewrite mult_INR. assert (INR m <> 0) by (apply not_0_INR; lia). change (INR 2) with 2. field. assumption. Qed.
Lemma kaxis_0 n : kaxis n 0 = 0.
Proof. unfold kaxis. change (INR 0) with 0. unfold Rdiv. ring. Qed.
Lemma kaxis_inj n i j : (0 < n)%nat -> kaxis n i = kaxis n j -> i = j.
Proof.
  intros Hn H. unfold kaxis in H. assert (INR n <> 0) by (apply not_0_INR; lia). pose proof PI_RGT_0.
  apply (f_equal (fun t => t * INR n / (2 * PI))) in H. apply INR_eq.
  replace (INR i) with (2 * PI * INR i / INR n * INR n / (2 * PI)) by (field; lra). rewrite H. field. lra.
Qed.
Lemma oz_xi_sign a xi x y z : oz_at a (- xi) x y z = oz_at a xi x y z.
Proof. unfold oz_at. replace ((- xi) ^ 2) with (xi ^ 2) by ring. reflexivity. Qed.

Lemma inv_sq_inj x y : x <> 0 -> y <> 0 -> / x ^ 2 = / y ^ 2 -> x ^ 2 = y ^ 2.
Proof. intros Hx Hy H. rewrite <- (Rinv_inv (x ^ 2)), H. apply Rinv_inv. Qed.
(** two momenta at different distances from (pi,pi,0) determine the parameters *)
Lemma oz_ident a xi a' xi' x y z x' y' z' : 0 < a -> xi <> 0 -> xi' <> 0 ->
  (x - PI) ^ 2 + (y - PI) ^ 2 + z ^ 2 <> (x' - PI) ^ 2 + (y' - PI) ^ 2 + z' ^ 2 ->
  oz_at a xi x y z = oz_at a' xi' x y z -> oz_at a xi x' y' z' = oz_at a' xi' x' y' z' -> a' = a /\ xi' ^ 2 = xi ^ 2.
Proof.
  intros Ha Hx Hx' Hd E1 E2. pose proof (den_pos xi x y z Hx) as D1. pose proof (den_pos xi' x y z Hx') as D2.
  pose proof (den_pos xi x' y' z' Hx) as D3. pose proof (den_pos xi' x' y' z' Hx') as D4. unfold oz_at in *.
  set (c := / xi ^ 2) in *. set (c' := / xi' ^ 2) in *. set (r1 := (x - PI) ^ 2 + (y - PI) ^ 2 + z ^ 2) in *. set (r2 := (x' - PI) ^ 2 + (y' - PI) ^ 2 + z' ^ 2) in *.
  assert (X1 : forall t, t + (x - PI) ^ 2 + (y - PI) ^ 2 + (z - 0) ^ 2 = t + r1) by (intros; unfold r1; ring).
  assert (X2 : forall t, t + (x' - PI) ^ 2 + (y' - PI) ^ 2 + (z' - 0) ^ 2 = t + r2) by (intros; unfold r2; ring).
  rewrite !X1 in *. rewrite !X2 in *. clear X1 X2.
  assert (F1 : a * (c' + r1) = a' * (c + r1)).
  { apply (f_equal (fun t => t * ((c + r1) * (c' + r1)))) in E1. field_simplify in E1; [|lra|lra]. lra. }
  assert (F2 : a * (c' + r2) = a' * (c + r2)).
  { apply (f_equal (fun t => t * ((c + r2) * (c' + r2)))) in E2. field_simplify in E2; [|lra|lra]. lra. }
  assert (F3 : (a - a') * (r1 - r2) = 0) by lra. apply Rmult_integral in F3 as [F3|F3]; [|lra].
  assert (a' = a) by lra. split; [assumption|]. subst a'. assert (c' = c) by (apply Rmult_eq_reg_l with a; lra).
  apply inv_sq_inj; assumption.
Qed.
Lemma first_step n : (2 <= n)%nat -> (kaxis n 1 - PI) ^ 2 < (kaxis n 0 - PI) ^ 2.
Proof.
  intros H. rewrite kaxis_0. pose proof PI_RGT_0. assert (B : 0 < kaxis n 1 <= PI).
  { unfold kaxis. change (INR 1) with 1. assert (Hn : 2 <= INR n) by (change 2 with (INR 2); now apply le_INR). split.
    - apply Rmult_lt_0_compat; [lra|]. apply Rinv_0_lt_compat. lra.
    - apply Rmult_le_reg_r with (INR n); [lra|]. unfold Rdiv. rewrite Rmult_assoc, Rinv_l by lra. nra. }
  nra.
Qed.
Lemma z_step n : (2 <= n)%nat -> 0 < kaxis n 1.
Proof.
  intros H. unfold kaxis. change (INR 1) with 1. pose proof PI_RGT_0. apply Rmult_lt_0_compat; [lra|]. apply Rinv_0_lt_compat. apply lt_0_INR. lia.
Qed.
Lemma oz_unique nx ny nz a xi a' xi' : (0 < nx)%nat -> (0 < ny)%nat -> (0 < nz)%nat -> (1 < nx * ny * nz)%nat -> 0 < a -> xi <> 0 -> xi' <> 0 ->
  oz_spin_w0 nx ny nz a xi = oz_spin_w0 nx ny nz a' xi' -> a' = a /\ Rabs xi' = Rabs xi.
Proof.
  intros Hx Hy Hz Hn Ha Hxi Hxi' E.
  assert (P : forall ix iy iz, (ix < nx)%nat -> (iy < ny)%nat -> (iz < nz)%nat ->
    oz_at a xi (kaxis nx ix) (kaxis ny iy) (kaxis nz iz) = oz_at a' xi' (kaxis nx ix) (kaxis ny iy) (kaxis nz iz)).
  { intros ix iy iz A B C. pose proof (oz_nth nx ny nz a xi ix iy iz A B C) as X. rewrite E, oz_nth in X by assumption. now injection X. }
  assert (Q : exists ix iy iz, (ix < nx)%nat /\ (iy < ny)%nat /\ (iz < nz)%nat /\
    (kaxis nx 0 - PI) ^ 2 + (kaxis ny 0 - PI) ^ 2 + kaxis nz 0 ^ 2 <> (kaxis nx ix - PI) ^ 2 + (kaxis ny iy - PI) ^ 2 + kaxis nz iz ^ 2).
  { destruct (Nat.le_gt_cases 2 nx) as [A|A]; [exists 1%nat, 0%nat, 0%nat; repeat split; try lia; pose proof (first_step nx A); lra|].
    destruct (Nat.le_gt_cases 2 ny) as [B|B]; [exists 0%nat, 1%nat, 0%nat; repeat split; try lia; pose proof (first_step ny B); lra|].
    destruct (Nat.le_gt_cases 2 nz) as [C|C]; [exists 0%nat, 0%nat, 1%nat; repeat split; try lia; pose proof (z_step nz C); rewrite (kaxis_0 nz); nra|].
    assert (nx = 1%nat) by lia. assert (ny = 1%nat) by lia. assert (nz = 1%nat) by lia. subst. lia. }
  destruct Q as [ix [iy [iz [A [B [C D]]]]]].
  destruct (oz_ident a xi a' xi' _ _ _ _ _ _ Ha Hxi Hxi' D (P _ _ _ Hx Hy Hz) (P _ _ _ A B C)) as [F1 F2]. split; [assumption|].
  rewrite <- !sqrt_Rsqr_abs, !Rsqr_pow2. now rewrite F2.
Qed.
Lemma oz_kz_refl nz a xi x y iz : 0 < a -> xi <> 0 -> (0 < iz < nz)%nat -> iz <> (nz - iz)%nat ->
  oz_at a xi x y (kaxis nz iz) <> oz_at a xi x y (kaxis nz (nz - iz)).
Proof.
  intros Ha Hx Hi Hne E. pose proof (den_pos xi x y (kaxis nz iz) Hx) as D1. pose proof (den_pos xi x y (kaxis nz (nz - iz)) Hx) as D2. unfold oz_at in E.
  unfold Rdiv in E. apply Rmult_eq_reg_l in E; [|lra]. apply (f_equal Rinv) in E. rewrite (Rinv_inv (/ xi ^ 2 + (x - PI) ^ 2 + (y - PI) ^ 2 + (kaxis nz iz - 0) ^ 2)) in E.
  rewrite (Rinv_inv (/ xi ^ 2 + (x - PI) ^ 2 + (y - PI) ^ 2 + (kaxis nz (nz - iz) - 0) ^ 2)) in E.
  pose proof (kaxis_bounds nz iz ltac:(lia)). pose proof (kaxis_bounds nz (nz - iz) ltac:(lia)).
  assert (S : kaxis nz iz = kaxis nz (nz - iz)) by nra. apply kaxis_inj in S; lia.
Qed.
