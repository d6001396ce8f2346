(** C92: the Ornstein-Zernicke function and the fit of the static spin susceptibility. *)
From Coq Require Import Reals List Lia Lra Arith.
From Verif Require Import Base.PyBase Model.Wannier Model.HkFile Model.OzFit Proofs.HkSaveP Proofs.OzFitP.
Import ListNotations.
Local Open Scope R_scope.

(** One value per mesh point, in C order; the momentum with indices (ix,iy,iz) is
    (2 pi ix/nx, 2 pi iy/ny, 2 pi iz/nz) and the value there is
    a / (xi^-2 + |q - (pi,pi,0)|^2). *)
Theorem C92_order : forall nx ny nz a xi,
  length (oz_spin_w0 nx ny nz a xi) = (nx * (ny * nz))%nat /\
  forall ix iy iz, (ix < nx)%nat -> (iy < ny)%nat -> (iz < nz)%nat ->
    nth_error (oz_spin_w0 nx ny nz a xi) ((ix * ny + iy) * nz + iz) =
    Some (a / (/ (xi * xi) + Rsqr (2 * PI * INR ix / INR nx - PI) + Rsqr (2 * PI * INR iy / INR ny - PI) + Rsqr (2 * PI * INR iz / INR nz))).
Proof.
  intros. split; [apply oz_length|]. intros. rewrite oz_nth by assumption. f_equal. unfold oz_at, kaxis, Rsqr. f_equal.
  replace (xi ^ 2) with (xi * xi) by ring. ring.
Qed.
(** All values are positive and at most a xi^2; only the momentum (pi,pi,0) has the value a xi^2. *)
Theorem C92_maximum : forall nx ny nz a xi, 0 < a -> xi <> 0 ->
  (forall v, In v (oz_spin_w0 nx ny nz a xi) -> 0 < v <= a * xi ^ 2) /\
  (forall ix iy iz, (ix < nx)%nat -> (iy < ny)%nat -> (iz < nz)%nat ->
     (nth_error (oz_spin_w0 nx ny nz a xi) ((ix * ny + iy) * nz + iz) = Some (a * xi ^ 2) <->
      (2 * ix = nx)%nat /\ (2 * iy = ny)%nat /\ iz = 0%nat)).
Proof.
  intros nx ny nz a xi Ha Hxi. split.
  - intros v Hv. apply In_nth_error in Hv as [k Hk]. assert (L : (k < nx * (ny * nz))%nat) by (rewrite <- (oz_length nx ny nz a xi); apply nth_error_Some; congruence).
    assert (0 < nz)%nat by (destruct nz; nia). assert (0 < ny)%nat by (destruct ny; nia).
    pose proof (Nat.div_mod k nz ltac:(lia)) as D1. pose proof (Nat.mod_upper_bound k nz ltac:(lia)).
    pose proof (Nat.div_mod (k / nz) ny ltac:(lia)) as D2. pose proof (Nat.mod_upper_bound (k / nz) ny ltac:(lia)).
    assert (k / nz < nx * ny)%nat by (apply Nat.div_lt_upper_bound; nia). assert (k / nz / ny < nx)%nat by (apply Nat.div_lt_upper_bound; nia).
    replace k with ((k / nz / ny * ny + (k / nz) mod ny) * nz + k mod nz)%nat in Hk by nia.
    rewrite oz_nth in Hk by assumption. injection Hk as <-. split; [now apply oz_pos|now apply oz_max].
  - intros ix iy iz Hx Hy Hz. rewrite oz_nth by assumption. split.
    + intros E. injection E as E. apply (proj2 (oz_max a xi _ _ _ Ha Hxi)) in E as [E1 [E2 E3]].
      assert (D : forall n i, (i < n)%nat -> kaxis n i = PI -> (2 * i = n)%nat).
      { intros n i Hi E. apply INR_eq. rewrite mult_INR. change (INR 2) with 2. unfold kaxis in E. pose proof PI_RGT_0. assert (INR n <> 0) by (apply not_0_INR; lia).
        apply Rmult_eq_reg_l with PI; [|lra]. replace (PI * (2 * INR i)) with (2 * PI * INR i / INR n * INR n) by (field; assumption). rewrite E. ring. }
      repeat split; [now apply D|now apply D|]. rewrite <- (kaxis_0 nz) in E3. apply kaxis_inj in E3; [assumption|lia].
    + intros [<- [<- ->]]. rewrite !kaxis_half, kaxis_0 by lia. now rewrite oz_peak.
Qed.
(** xi is the correlation length: at the distance 1/xi from (pi,pi,0) the value is half the maximum. *)
Theorem C92_correlation_length : forall a xi x y z, xi <> 0 ->
  sqrt (Rsqr (x - PI) + Rsqr (y - PI) + Rsqr z) = / Rabs xi -> oz_at a xi x y z = a * xi ^ 2 / 2.
Proof.
  intros a xi x y z Hx E. apply oz_half; [assumption|]. apply (f_equal Rsqr) in E. rewrite Rsqr_sqrt in E.
  - rewrite Rsqr_inv in E by (now apply Rabs_no_R0). rewrite <- Rsqr_abs in E. rewrite !Rsqr_pow2 in E. exact E.
  - pose proof (Rle_0_sqr (x - PI)). pose proof (Rle_0_sqr (y - PI)). pose proof (Rle_0_sqr z). lra.
Qed.
(** In-plane inversions q -> -q of one component and the exchange of qx and qy leave
    the function unchanged, and so does the sign of xi. *)
Theorem C92_symmetry : forall nx ny nz a xi ix iy iz, (0 < ix < nx)%nat -> (iy < ny)%nat -> (iz < nz)%nat ->
  nth_error (oz_spin_w0 nx ny nz a xi) (((nx - ix) * ny + iy) * nz + iz) = nth_error (oz_spin_w0 nx ny nz a xi) ((ix * ny + iy) * nz + iz) /\
  nth_error (oz_spin_w0 ny nx nz a xi) ((iy * nx + (nx - ix)) * nz + iz) = nth_error (oz_spin_w0 ny nx nz a xi) ((iy * nx + ix) * nz + iz) /\
  nth_error (oz_spin_w0 ny nx nz a xi) ((iy * nx + ix) * nz + iz) = nth_error (oz_spin_w0 nx ny nz a xi) ((ix * ny + iy) * nz + iz) /\
  nth_error (oz_spin_w0 nx ny nz a (- xi)) ((ix * ny + iy) * nz + iz) = nth_error (oz_spin_w0 nx ny nz a xi) ((ix * ny + iy) * nz + iz).
Proof.
  intros nx ny nz a xi ix iy iz Hx Hy Hz. rewrite !oz_nth by lia. rewrite kaxis_refl by lia. rewrite oz_xi_sign.
  repeat split; f_equal; unfold oz_at; f_equal; ring.
Qed.
(** The parameters can be read off the values: on a mesh of more than one point two
    pairs (a,xi) with the same values agree, up to the sign of xi. *)
Theorem C92_identifiable : forall nx ny nz a xi a' xi', (0 < nx)%nat -> (0 < ny)%nat -> (0 < nz)%nat -> (1 < nx * ny * nz)%nat -> 0 < a -> xi <> 0 -> xi' <> 0 ->
  oz_spin_w0 nx ny nz a xi = oz_spin_w0 nx ny nz a' xi' -> a' = a /\ Rabs xi' = Rabs xi.
Proof. exact oz_unique. Qed.
(** So a least-squares routine that finds a zero of the residual recovers a and |xi|. *)
Theorem C92_recovered : forall fit nx ny nz a xi p, (0 < nx)%nat -> (0 < ny)%nat -> (0 < nz)%nat -> (1 < nx * ny * nz)%nat -> 0 < a -> xi <> 0 ->
  (forall f y p0 q, fit f y p0 = Ok q -> (exists r, f (fst r) (snd r) = y) -> f (fst q) (snd q) = y) ->
  fit_oz_spin fit nx ny nz (oz_spin_w0 nx ny nz a xi) = Ok p -> snd p <> 0 -> fst p = a /\ Rabs (snd p) = Rabs xi.
Proof.
  intros fit nx ny nz a xi p Hx Hy Hz Hn Ha Hxi Hfit E Hp. unfold fit_oz_spin in E. destruct (np_max _) as [m|] eqn:Em; cbn in E; [|discriminate].
  apply Hfit in E; [|exists (a, xi); reflexivity]. apply (oz_unique nx ny nz); try assumption. now symmetry.
Qed.
(** The fit starts from (largest value, 2) and gets exactly the zero-frequency slice;
    if anything fails the written coefficients are (-1,-1). *)
Theorem C92_fallback : forall fit nx ny nz nw chi,
  let chi0 := mesh_list nx ny nz (fun ix iy iz => nth (Nat.div nw 2) (chi ix iy iz) 0) in
  ((nx * (ny * nz) = 0)%nat -> oz_coeff fit nx ny nz nw chi = (-1, -1)) /\
  ((0 < nx * (ny * nz))%nat -> exists m, In m chi0 /\ (forall v, In v chi0 -> v <= m) /\
     oz_coeff fit nx ny nz nw chi = match fit (oz_spin_w0 nx ny nz) chi0 (m, 2) with Ok p => p | Raise _ => (-1, -1) end).
Proof.
  intros fit nx ny nz nw chi chi0. unfold oz_coeff, fit_oz_spin. fold chi0. assert (L : length chi0 = (nx * (ny * nz))%nat) by apply mesh_len. split.
  - intros H. rewrite H in L. destruct chi0; [reflexivity|discriminate].
  - intros H. destruct chi0 as [|x t]; [cbn in L; lia|]. cbn [np_max bind].
    assert (M : forall t x, In (fold_left Rmax t x) (x :: t) /\ (forall v, In v (x :: t) -> v <= fold_left Rmax t x)).
    { clear. induction t as [|y t IH]; intros x; cbn [fold_left].
      - split; [now left|]. intros v [->|[]]. lra.
      - destruct (IH (Rmax x y)) as [A B]. split.
        + destruct A as [A|A]; [|right; right; exact A]. rewrite <- A. unfold Rmax. destruct (Rle_dec x y); [right; left|left]; reflexivity.
        + intros v [<-|[<-|Hv]]; [eapply Rle_trans; [apply Rmax_l|]|eapply Rle_trans; [apply Rmax_r|]|]; apply B; [left; reflexivity|left; reflexivity|right; exact Hv]. }
    destruct (M t x) as [A B]. eexists. split; [exact A|]. split; [exact B|reflexivity].
Qed.
(** Finding: the distance in qz is not periodic, so on a mesh with several qz planes
    the function is not inversion symmetric: planes iz and nz - iz always differ. *)
Theorem C92_kz_finding : forall nx ny nz a xi ix iy iz, 0 < a -> xi <> 0 -> (ix < nx)%nat -> (iy < ny)%nat -> (0 < iz < nz)%nat -> (2 * iz <> nz)%nat ->
  nth_error (oz_spin_w0 nx ny nz a xi) ((ix * ny + iy) * nz + iz) <> nth_error (oz_spin_w0 nx ny nz a xi) ((ix * ny + iy) * nz + (nz - iz)).
Proof. intros. rewrite !oz_nth by lia. intros E. injection E as E. revert E. apply oz_kz_refl; try assumption; lia. Qed.

(** non-vacuity *)
Example C92_ex : oz_at 3 2 PI PI 0 = 12.
Proof. rewrite oz_peak; lra. Qed.
(** a fitting routine that meets the hypothesis of C92_recovered: it fails on every other input *)
Example C92_ex_recovered : forall a xi, exists fit : (R -> R -> list R) -> list R -> R * R -> res (R * R),
  (forall f y p0 q, fit f y p0 = Ok q -> (exists r, f (fst r) (snd r) = y) -> f (fst q) (snd q) = y) /\
  fit_oz_spin fit 4 4 1 (oz_spin_w0 4 4 1 a xi) = Ok (a, xi).
Proof.
  intros a xi. exists (fun f y _ => if list_eq_dec Req_EM_T (f a xi) y then Ok (a, xi) else Raise RuntimeError). split.
  - intros f y p0 q E _. destruct (list_eq_dec Req_EM_T (f a xi) y) as [F|F]; [|discriminate]. injection E as <-. exact F.
  - unfold fit_oz_spin. destruct (np_max _) as [m|] eqn:Em; [|unfold oz_spin_w0, mesh_list in Em; cbn in Em; discriminate]. cbn [bind].
    destruct (list_eq_dec Req_EM_T _ _) as [F|F]; [reflexivity|]. now elim F.
Qed.
Print Assumptions C92_order.
Print Assumptions C92_maximum.
Print Assumptions C92_correlation_length.
Print Assumptions C92_symmetry.
Print Assumptions C92_identifiable.
Print Assumptions C92_recovered.
Print Assumptions C92_fallback.
Print Assumptions C92_kz_finding.
