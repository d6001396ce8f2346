(** Proofs about Model/Wannier.v. *)
From Coq Require Import Reals List ZArith Lra Lia Psatz.
From Verif Require Import Model.Wannier Spec.WannierSpec.
Import ListNotations.
Local Open Scope R_scope.

Lemma cpx_eq (a b : cpx) : fst a = fst b -> snd a = snd b -> a = b.
Proof. destruct a, b; cbn; intros -> ->; reflexivity. Qed.
Lemma csum_ext n f g : (forall i, (i < n)%nat -> f i = g i) -> csum n f = csum n g.
Proof. induction n as [|n IH]; cbn; intros H; [reflexivity|]. rewrite IH by (intros; apply H; lia). rewrite H by lia. reflexivity. Qed.
Lemma fst_csum n f : fst (csum n f) = match n with O => 0 | S m => fst (csum m f) + fst (f m) end.
Proof. destruct n; reflexivity. Qed.

(** one term of the sums: real and imaginary part *)
Definition term_re (w : wannier) (k : kvec) a b r :=
  (cos (rdotk (r_grid w r a b) k) * fst (hr w r a b) - sin (rdotk (r_grid w r a b) k) * snd (hr w r a b)) / r_weights w r.
Definition term_im (w : wannier) (k : kvec) a b r :=
  (cos (rdotk (r_grid w r a b) k) * snd (hr w r a b) + sin (rdotk (r_grid w r a b) k) * fst (hr w r a b)) / r_weights w r.
Lemma rsum_ext n f g : (forall i, (i < n)%nat -> f i = g i) -> rsum n f = rsum n g.
Proof. induction n as [|n IH]; cbn; intros H; [reflexivity|]. rewrite IH by (intros; apply H; lia). rewrite H by lia. reflexivity. Qed.
Lemma csumE n f : csum n f = (rsum n (fun i => fst (f i)), rsum n (fun i => snd (f i))).
Proof. induction n as [|n IH]; cbn; [reflexivity|]. rewrite IH. reflexivity. Qed.
Lemma convhamE w k a b : convham w k a b = (rsum (n_r w) (term_re w k a b), rsum (n_r w) (term_im w k a b)).
Proof.
  unfold convham. rewrite csumE. f_equal; apply rsum_ext; intros r _; unfold term_re, term_im; cbn; unfold Rdiv; ring.
Qed.
Lemma light_vertexE w der k a b : light_vertex w der k a b =
  (rsum (n_r w) (fun r => - r_grid w r a b der * term_im w k a b r), rsum (n_r w) (fun r => r_grid w r a b der * term_re w k a b r)).
Proof.
  unfold light_vertex. rewrite csumE. f_equal; apply rsum_ext; intros r _; unfold term_re, term_im; cbn; unfold Rdiv; ring.
Qed.

(** ** the mesh *)
Lemma lin_x nky nkz ix iy iz : (iy < nky)%nat -> (iz < nkz)%nat -> (((ix * nky + iy) * nkz + iz) / (nky * nkz) = ix)%nat.
Proof.
  intros H1 H2. replace ((ix * nky + iy) * nkz + iz)%nat with (iy * nkz + iz + ix * (nky * nkz))%nat by ring.
  rewrite Nat.div_add by nia. rewrite Nat.div_small by nia. reflexivity.
Qed.
Lemma lin_y nky nkz ix iy iz : (iy < nky)%nat -> (iz < nkz)%nat -> (((ix * nky + iy) * nkz + iz) / nkz mod nky = iy)%nat.
Proof.
  intros H1 H2. rewrite Nat.div_add_l by lia. rewrite (Nat.div_small iz) by lia.
  rewrite Nat.add_0_r, Nat.add_comm, Nat.mod_add by lia. apply Nat.mod_small. lia.
Qed.
Lemma lin_z nky nkz ix iy iz : (iz < nkz)%nat -> (((ix * nky + iy) * nkz + iz) mod nkz = iz)%nat.
Proof. intros H2. rewrite Nat.add_comm, Nat.mod_add by lia. apply Nat.mod_small. lia. Qed.
Lemma get_ek_all_mesh w nkx nky nkz ix iy iz a b : (ix < nkx)%nat -> (iy < nky)%nat -> (iz < nkz)%nat ->
  get_ek_all w nkx nky nkz ix iy iz a b = convham w (kpoint nkx nky nkz ix iy iz) a b.
Proof. intros H1 H2 H3. unfold get_ek_all. cbv zeta. rewrite lin_x, lin_y, lin_z by assumption. reflexivity. Qed.
Lemma get_light_vertex_mesh w der nkx nky nkz ix iy iz : (ix < nkx)%nat -> (iy < nky)%nat -> (iz < nkz)%nat ->
  get_light_vertex w der nkx nky nkz ix iy iz = light_vertex w der (kpoint nkx nky nkz ix iy iz) 0 0.
Proof. intros H1 H2 H3. unfold get_light_vertex. cbv zeta. rewrite lin_x, lin_y, lin_z by assumption. reflexivity. Qed.

(** ** square lattice *)
Lemma square_disp tx ty tppx tppy tpxy k :
  convham (wannier_one_band_2d_nematic tx ty tppx tppy tpxy) k 0 0
  = (- 2 * tx * cos (k 0%nat) - 2 * ty * cos (k 1%nat) - 4 * tpxy * cos (k 0%nat) * cos (k 1%nat)
     - 2 * tppx * cos (2 * k 0%nat) - 2 * tppy * cos (2 * k 1%nat), 0).
Proof.
  rewrite convhamE. cbn [n_r wannier_one_band_2d_nematic rsum]. unfold term_re, term_im, rdotk.
  cbn [n_r wannier_one_band_2d_nematic hr r_grid r_weights nth square_r vec3 cre fst snd].
  set (x := k 0%nat). set (y := k 1%nat). set (z := k 2%nat).
  assert (A : forall u v : R, u = v -> cos u = cos v) by (intros; subst; auto).
  assert (B : forall u v : R, u = v -> sin u = sin v) by (intros; subst; auto).
  replace (1 * x + 0 * y + 0 * z) with x by ring. replace (0 * x + 1 * y + 0 * z) with y by ring.
  replace (-1 * x + 0 * y + 0 * z) with (- x) by ring. replace (0 * x + -1 * y + 0 * z) with (- y) by ring.
  replace (1 * x + 1 * y + 0 * z) with (x + y) by ring. replace (1 * x + -1 * y + 0 * z) with (x - y) by ring.
  replace (-1 * x + 1 * y + 0 * z) with (- (x - y)) by ring. replace (-1 * x + -1 * y + 0 * z) with (- (x + y)) by ring.
  replace (2 * x + 0 * y + 0 * z) with (2 * x) by ring. replace (0 * x + 2 * y + 0 * z) with (2 * y) by ring.
  replace (-2 * x + 0 * y + 0 * z) with (- (2 * x)) by ring. replace (0 * x + -2 * y + 0 * z) with (- (2 * y)) by ring.
  rewrite !cos_neg, !sin_neg, !cos_plus, !cos_minus. f_equal; field.
Qed.
Lemma t_tp_tpp_nematic t tp tpp : forall k, convham (wannier_one_band_2d_t_tp_tpp t tp tpp) k 0 0
  = convham (wannier_one_band_2d_nematic t t tpp tpp tp) k 0 0.
Proof. reflexivity. Qed.
Lemma t_tp_tpp_disp t tp tpp k : convham (wannier_one_band_2d_t_tp_tpp t tp tpp) k 0 0 = (ek_square (k 0%nat) (k 1%nat) t tp tpp, 0).
Proof. rewrite t_tp_tpp_nematic, square_disp. f_equal. unfold ek_square. ring. Qed.

(** ** derivative *)
Lemma rdotk_move r k d x : (d < 3)%nat -> rdotk r (with_k k d x) = r d * x + rdotk r (with_k k d 0).
Proof. intros H. destruct d as [|[|[|d]]]; try lia; unfold rdotk, with_k; cbn; ring. Qed.
Lemma rdotk_move_self r k d : rdotk r (with_k k d (k d)) = rdotk r k.
Proof. unfold rdotk, with_k. f_equal; [f_equal|]; f_equal; match goal with |- (if Nat.eqb ?a ?b then _ else _) = _ => destruct (Nat.eqb_spec a b); subst; auto end. Qed.
Lemma deriv_cos_lin c e x : derivable_pt_lim (fun x => cos (c * x + e)) x (- c * sin (c * x + e)).
Proof.
  replace (- c * sin (c * x + e)) with (- sin (c * x + e) * (c * 1 + 0)) by ring.
  apply (derivable_pt_lim_comp (fun x => c * x + e) cos).
  - apply (derivable_pt_lim_plus (fun x => c * x) (fun _ => e)); [apply (derivable_pt_lim_scal id); apply derivable_pt_lim_id|apply derivable_pt_lim_const].
  - apply derivable_pt_lim_cos.
Qed.
Lemma deriv_sin_lin c e x : derivable_pt_lim (fun x => sin (c * x + e)) x (c * cos (c * x + e)).
Proof.
  replace (c * cos (c * x + e)) with (cos (c * x + e) * (c * 1 + 0)) by ring.
  apply (derivable_pt_lim_comp (fun x => c * x + e) sin).
  - apply (derivable_pt_lim_plus (fun x => c * x) (fun _ => e)); [apply (derivable_pt_lim_scal id); apply derivable_pt_lim_id|apply derivable_pt_lim_const].
  - apply derivable_pt_lim_sin.
Qed.
Lemma deriv_ext (f g : R -> R) x l : (forall y, f y = g y) -> derivable_pt_lim f x l -> derivable_pt_lim g x l.
Proof. intros H D eps He. destruct (D eps He) as [d Hd]. exists d. intros h Hh Hs. rewrite <- !H. apply Hd; assumption. Qed.
Lemma deriv_rsum n (f : R -> nat -> R) (g : nat -> R) x : (forall i, (i < n)%nat -> derivable_pt_lim (fun y => f y i) x (g i)) ->
  derivable_pt_lim (fun y => rsum n (f y)) x (rsum n g).
Proof.
  induction n as [|n IH]; cbn; intros H; [apply derivable_pt_lim_const|].
  apply (derivable_pt_lim_plus (fun y => rsum n (f y)) (fun y => f y n)); [apply IH; intros; apply H; lia|apply H; lia].
Qed.
Lemma deriv_term c s (A B C W : R) x :
  derivable_pt_lim c x A -> derivable_pt_lim s x B -> forall p q,
  derivable_pt_lim (fun y => (c y * p + s y * q) * W) x ((A * p + B * q) * W).
Proof.
  intros H1 H2 p q.
  apply (deriv_ext (fun y => W * (p * c y + q * s y))); [intros; ring|].
  replace ((A * p + B * q) * W) with (W * (p * A + q * B)) by ring.
  apply (derivable_pt_lim_scal (fun y => p * c y + q * s y)).
  apply (derivable_pt_lim_plus (fun y => p * c y) (fun y => q * s y)); apply derivable_pt_lim_scal; assumption.
Qed.
Lemma light_vertex_deriv w der k a b : (der < 3)%nat ->
  derivable_pt_lim (fun x => fst (convham w (with_k k der x) a b)) (k der) (fst (light_vertex w der k a b)) /\
  derivable_pt_lim (fun x => snd (convham w (with_k k der x) a b)) (k der) (snd (light_vertex w der k a b)).
Proof.
  intros Hd. rewrite light_vertexE. cbn [fst snd]. split.
  - apply (deriv_ext (fun x => rsum (n_r w) (term_re w (with_k k der x) a b))); [intros; rewrite convhamE; reflexivity|].
    apply (deriv_rsum (n_r w) (fun x => term_re w (with_k k der x) a b)). intros r _.
    set (c := r_grid w r a b der). set (e := rdotk (r_grid w r a b) (with_k k der 0)).
    apply (deriv_ext (fun x => (cos (c * x + e) * fst (hr w r a b) + sin (c * x + e) * (- snd (hr w r a b))) * / r_weights w r)).
    { intros y. unfold term_re. rewrite (rdotk_move _ k der y Hd). fold c e. unfold Rdiv. ring. }
    replace (- c * term_im w k a b r) with
      ((- c * sin (c * k der + e) * fst (hr w r a b) + c * cos (c * k der + e) * (- snd (hr w r a b))) * / r_weights w r).
    + apply deriv_term; [exact 0|apply deriv_cos_lin|apply deriv_sin_lin].
    + unfold term_im. rewrite <- (rdotk_move_self _ k der), (rdotk_move _ k der (k der) Hd). fold c e. unfold Rdiv. ring.
  - apply (deriv_ext (fun x => rsum (n_r w) (term_im w (with_k k der x) a b))); [intros; rewrite convhamE; reflexivity|].
    apply (deriv_rsum (n_r w) (fun x => term_im w (with_k k der x) a b)). intros r _.
    set (c := r_grid w r a b der). set (e := rdotk (r_grid w r a b) (with_k k der 0)).
    apply (deriv_ext (fun x => (cos (c * x + e) * snd (hr w r a b) + sin (c * x + e) * fst (hr w r a b)) * / r_weights w r)).
    { intros y. unfold term_im. rewrite (rdotk_move _ k der y Hd). fold c e. unfold Rdiv. ring. }
    replace (c * term_re w k a b r) with
      ((- c * sin (c * k der + e) * snd (hr w r a b) + c * cos (c * k der + e) * fst (hr w r a b)) * / r_weights w r).
    + apply deriv_term; [exact 0|apply deriv_cos_lin|apply deriv_sin_lin].
    + unfold term_re. rewrite <- (rdotk_move_self _ k der), (rdotk_move _ k der (k der) Hd). fold c e. unfold Rdiv. ring.
Qed.
Lemma ek_square_deriv kx ky t tp tpp :
  derivable_pt_lim (fun x => ek_square x ky t tp tpp) kx (del_ek_del_kx_square kx ky t tp tpp).
Proof.
  unfold ek_square, del_ek_del_kx_square.
  assert (C1 : derivable_pt_lim cos kx (- sin kx)) by apply derivable_pt_lim_cos.
  assert (C2 : derivable_pt_lim (fun x => cos (2 * x)) kx (- 2 * sin (2 * kx))).
  { apply (deriv_ext (fun x => cos (2 * x + 0))); [intros; f_equal; ring|].
    replace (- 2 * sin (2 * kx)) with (- 2 * sin (2 * kx + 0)) by (do 2 f_equal; ring). apply deriv_cos_lin. }
  apply (deriv_ext (fun x => ((cos x * (- 2 * t - 4 * tp * cos ky) + cos (2 * x) * (- 2 * tpp)) * 1) + (- 2 * t * cos ky - 2 * tpp * cos (2 * ky)))).
  { intros; ring. }
  replace (- 2 * t * - sin kx + 4 * tp * sin kx * cos ky - 2 * tpp * (- 2 * sin (2 * kx))) with
    ((- sin kx * (- 2 * t - 4 * tp * cos ky) + (- 2 * sin (2 * kx)) * (- 2 * tpp)) * 1 + 0) by ring.
  apply (derivable_pt_lim_plus (fun x => (cos x * (- 2 * t - 4 * tp * cos ky) + cos (2 * x) * (- 2 * tpp)) * 1) (fun _ => - 2 * t * cos ky - 2 * tpp * cos (2 * ky))).
  - apply deriv_term; [exact 0|assumption|assumption].
  - apply derivable_pt_lim_const.
Qed.

(** ** periodicity *)
Lemma cos_period_Z x z : cos (x + 2 * IZR z * PI) = cos x.
Proof.
  destruct z as [|p|p].
  - f_equal. ring.
  - rewrite <- (cos_period x (Pos.to_nat p)). f_equal. rewrite INR_IPR. reflexivity.
  - rewrite <- (cos_period (x + 2 * IZR (Z.neg p) * PI) (Pos.to_nat p)). f_equal. rewrite INR_IPR. change (IZR (Z.neg p)) with (- IPR p). ring.
Qed.
Lemma sin_period_Z x z : sin (x + 2 * IZR z * PI) = sin x.
Proof.
  destruct z as [|p|p].
  - f_equal. ring.
  - rewrite <- (sin_period x (Pos.to_nat p)). f_equal. rewrite INR_IPR. reflexivity.
  - rewrite <- (sin_period (x + 2 * IZR (Z.neg p) * PI) (Pos.to_nat p)). f_equal. rewrite INR_IPR. change (IZR (Z.neg p)) with (- IPR p). ring.
Qed.
Lemma convham_periodic w k (g : nat -> Z) a b : integer_vectors w ->
  convham w (fun d => k d + 2 * PI * IZR (g d)) a b = convham w k a b.
Proof.
  intros H. rewrite !convhamE.
  assert (E : forall r, exists z : Z, rdotk (r_grid w r a b) (fun d => k d + 2 * PI * IZR (g d)) = rdotk (r_grid w r a b) k + 2 * IZR z * PI).
  { intros r. destruct (H r a b 0%nat) as [z0 H0]. destruct (H r a b 1%nat) as [z1 H1]. destruct (H r a b 2%nat) as [z2 H2].
    exists (z0 * g 0%nat + z1 * g 1%nat + z2 * g 2%nat)%Z. unfold rdotk. rewrite H0, H1, H2, !plus_IZR, !mult_IZR. ring. }
  f_equal; apply rsum_ext; intros r _; destruct (E r) as [z Ez]; unfold term_re, term_im; rewrite Ez, cos_period_Z, sin_period_Z; reflexivity.
Qed.
