(** The mesh average of H(k) is the local Hamiltonian. *)
From Coq Require Import Reals List ZArith Lra Lia Psatz Bool.
From Verif Require Import Model.Wannier Spec.WannierSpec Proofs.WannierP Proofs.WannierSymP.
Import ListNotations.
Local Open Scope R_scope.

Lemma rsum_plus n f g : rsum n (fun i => f i + g i) = rsum n f + rsum n g.
Proof. induction n as [|n IH]; cbn; [ring|]. rewrite IH. ring. Qed.
Lemma rsum_scal n c f : rsum n (fun i => c * f i) = c * rsum n f.
Proof. induction n as [|n IH]; cbn; [ring|]. rewrite IH. ring. Qed.
Lemma rsum_swap n m (f : nat -> nat -> R) : rsum n (fun i => rsum m (f i)) = rsum m (fun j => rsum n (fun i => f i j)).
Proof.
  induction n as [|n IH]; cbn.
  - induction m as [|m IHm]; cbn; [reflexivity|]. rewrite <- IHm. ring.
  - rewrite IH. rewrite <- rsum_plus. reflexivity.
Qed.
Lemma rsum_const n c : rsum n (fun _ => c) = INR n * c.
Proof. induction n as [|n IH]; [cbn; ring|]. cbn [rsum]. rewrite IH, S_INR. ring. Qed.

Definition ang (z : Z) (n i : nat) : R := IZR z * mesh_k n i.
Lemma geom z n m : rsum m (fun i => cos (ang z n i)) * (cos (ang z n 1) - 1) - rsum m (fun i => sin (ang z n i)) * sin (ang z n 1)
   = cos (INR m * ang z n 1) - 1 /\
  rsum m (fun i => cos (ang z n i)) * sin (ang z n 1) + rsum m (fun i => sin (ang z n i)) * (cos (ang z n 1) - 1) = sin (INR m * ang z n 1).
Proof.
  assert (E : forall i, ang z n i = INR i * ang z n 1).
  { intros i. unfold ang, mesh_k. change (INR 1) with 1. unfold Rdiv. ring. }
  induction m as [|m [IH1 IH2]]; cbn [rsum].
  - replace (INR 0 * ang z n 1) with 0 by (change (INR 0) with 0; ring). rewrite cos_0, sin_0. split; ring.
  - rewrite S_INR, (E m). replace ((INR m + 1) * ang z n 1) with (INR m * ang z n 1 + ang z n 1) by ring. rewrite cos_plus, sin_plus. split; lra.
Qed.
Lemma cos_one x : cos x = 1 -> exists k : Z, x = 2 * IZR k * PI.
Proof.
  intros H. assert (S : sin (x / 2) = 0).
  { replace x with (2 * (x / 2)) in H by field. rewrite cos_2a_sin in H. nra. }
  destruct (sin_eq_0_0 _ S) as [k Hk]. exists k. lra.
Qed.
Lemma mesh_sum_cos z n : (0 < n)%nat ->
  rsum n (fun i => cos (ang z n i)) = (if (z mod Z.of_nat n =? 0)%Z then INR n else 0) /\ rsum n (fun i => sin (ang z n i)) = 0.
Proof.
  intros Hn. assert (N0 : INR n <> 0) by (apply not_0_INR; lia).
  destruct (Z.eqb_spec (z mod Z.of_nat n) 0) as [Hz|Hz].
  - apply Z_div_exact_2 in Hz; [|lia]. set (q := (z / Z.of_nat n)%Z) in Hz.
    assert (E : forall i, ang z n i = 0 + 2 * IZR (q * Z.of_nat i) * PI).
    { intros i. unfold ang, mesh_k. rewrite Hz, !mult_IZR, <- !INR_IZR_INZ. field. assumption. }
    split; [rewrite (rsum_ext n _ (fun _ => 1)); [rewrite rsum_const; ring|]|rewrite (rsum_ext n _ (fun _ => 0)); [rewrite rsum_const; ring|]];
      intros i _; rewrite E; [rewrite cos_period_Z; apply cos_0|rewrite sin_period_Z; apply sin_0].
  - destruct (geom z n n) as [G1 G2].
    assert (A : INR n * ang z n 1 = 0 + 2 * IZR z * PI) by (unfold ang, mesh_k; change (INR 1) with 1; field; assumption).
    rewrite A, cos_period_Z, sin_period_Z in *. rewrite cos_0 in G1. rewrite sin_0 in G2.
    assert (C1 : cos (ang z n 1) <> 1).
    { intros C. destruct (cos_one _ C) as [k Hk]. apply Hz. unfold ang, mesh_k in Hk. change (INR 1) with 1 in Hk.
      assert (Hzk : IZR z = IZR (k * Z.of_nat n)).
      { rewrite mult_IZR, <- INR_IZR_INZ.
        assert (P : PI <> 0) by (pose proof PI_RGT_0; lra).
        apply (Rmult_eq_reg_l (2 * PI)); [|lra].
        replace (2 * PI * IZR z) with (IZR z * (2 * PI * 1 / INR n) * INR n) by (field; assumption). rewrite Hk. ring. }
      apply eq_IZR in Hzk. rewrite Hzk. apply Z_mod_mult. }
    set (Sc := rsum n (fun i => cos (ang z n i))) in *. set (Ss := rsum n (fun i => sin (ang z n i))) in *.
    set (c := cos (ang z n 1)) in *. set (s := sin (ang z n 1)) in *.
    assert (D : (c - 1) * (c - 1) + s * s <> 0) by nra.
    split.
    + apply (Rmult_eq_reg_r ((c - 1) * (c - 1) + s * s)); [|assumption].
      replace (Sc * ((c - 1) * (c - 1) + s * s)) with ((Sc * (c - 1) - Ss * s) * (c - 1) + (Sc * s + Ss * (c - 1)) * s) by ring.
      rewrite G1, G2. ring.
    + apply (Rmult_eq_reg_r ((c - 1) * (c - 1) + s * s)); [|assumption].
      replace (Ss * ((c - 1) * (c - 1) + s * s)) with ((Sc * s + Ss * (c - 1)) * (c - 1) - (Sc * (c - 1) - Ss * s) * s) by ring.
      rewrite G1, G2. ring.
Qed.

Lemma phase_sum nx ny nz zx zy zz : (0 < nx)%nat -> (0 < ny)%nat -> (0 < nz)%nat ->
  sum3 nx ny nz (fun i j l => cos (ang zx nx i + ang zy ny j + ang zz nz l)) = (if divides3 nx ny nz zx zy zz then INR nx * INR ny * INR nz else 0) /\
  sum3 nx ny nz (fun i j l => sin (ang zx nx i + ang zy ny j + ang zz nz l)) = 0.
Proof.
  intros Hx Hy Hz. destruct (mesh_sum_cos zx nx Hx) as [Cx Sx]. destruct (mesh_sum_cos zy ny Hy) as [Cy Sy]. destruct (mesh_sum_cos zz nz Hz) as [Cz Sz].
  assert (L : forall a, rsum nz (fun l => cos (a + ang zz nz l)) = cos a * rsum nz (fun l => cos (ang zz nz l))
                /\ rsum nz (fun l => sin (a + ang zz nz l)) = sin a * rsum nz (fun l => cos (ang zz nz l))).
  { intros a. split.
    - rewrite (rsum_ext nz _ (fun l => cos a * cos (ang zz nz l) + (- sin a) * sin (ang zz nz l))) by (intros; rewrite cos_plus; ring).
      rewrite rsum_plus, !rsum_scal, Sz. ring.
    - rewrite (rsum_ext nz _ (fun l => sin a * cos (ang zz nz l) + cos a * sin (ang zz nz l))) by (intros; rewrite sin_plus; ring).
      rewrite rsum_plus, !rsum_scal, Sz. ring. }
  assert (M : forall a, rsum ny (fun j => cos (a + ang zy ny j)) = cos a * rsum ny (fun l => cos (ang zy ny l))
                /\ rsum ny (fun j => sin (a + ang zy ny j)) = sin a * rsum ny (fun l => cos (ang zy ny l))).
  { intros a. split.
    - rewrite (rsum_ext ny _ (fun l => cos a * cos (ang zy ny l) + (- sin a) * sin (ang zy ny l))) by (intros; rewrite cos_plus; ring).
      rewrite rsum_plus, !rsum_scal, Sy. ring.
    - rewrite (rsum_ext ny _ (fun l => sin a * cos (ang zy ny l) + cos a * sin (ang zy ny l))) by (intros; rewrite sin_plus; ring).
      rewrite rsum_plus, !rsum_scal, Sy. ring. }
  unfold sum3. split.
  - rewrite (rsum_ext nx _ (fun i => rsum ny (fun l => cos (ang zy ny l)) * rsum nz (fun l => cos (ang zz nz l)) * cos (ang zx nx i))).
    2:{ intros i _. rewrite (rsum_ext ny _ (fun j => rsum nz (fun l => cos (ang zz nz l)) * cos (ang zx nx i + ang zy ny j))).
        2:{ intros j _. destruct (L (ang zx nx i + ang zy ny j)) as [-> _]. ring. }
        rewrite rsum_scal. destruct (M (ang zx nx i)) as [-> _]. ring. }
    rewrite rsum_scal, Cx, Cy, Cz. unfold divides3.
    destruct (zx mod Z.of_nat nx =? 0)%Z, (zy mod Z.of_nat ny =? 0)%Z, (zz mod Z.of_nat nz =? 0)%Z; cbn; ring.
  - rewrite (rsum_ext nx _ (fun i => rsum ny (fun l => cos (ang zy ny l)) * rsum nz (fun l => cos (ang zz nz l)) * sin (ang zx nx i))).
    2:{ intros i _. rewrite (rsum_ext ny _ (fun j => rsum nz (fun l => cos (ang zz nz l)) * sin (ang zx nx i + ang zy ny j))).
        2:{ intros j _. destruct (L (ang zx nx i + ang zy ny j)) as [_ ->]. ring. }
        rewrite rsum_scal. destruct (M (ang zx nx i)) as [_ ->]. ring. }
    rewrite rsum_scal, Sx. ring.
Qed.

Lemma sum3_ext nx ny nz f g : (forall i j l, (i < nx)%nat -> (j < ny)%nat -> (l < nz)%nat -> f i j l = g i j l) -> sum3 nx ny nz f = sum3 nx ny nz g.
Proof. intros H. apply rsum_ext; intros i Hi; apply rsum_ext; intros j Hj; apply rsum_ext; intros l Hl. auto. Qed.
Lemma sum3_rsum nx ny nz n (f : nat -> nat -> nat -> nat -> R) :
  sum3 nx ny nz (fun i j l => rsum n (f i j l)) = rsum n (fun r => sum3 nx ny nz (fun i j l => f i j l r)).
Proof.
  unfold sum3. rewrite <- (rsum_swap nx n (fun i r => rsum ny (fun j => rsum nz (fun l => f i j l r)))). apply rsum_ext; intros i _.
  rewrite <- (rsum_swap ny n (fun j r => rsum nz (fun l => f i j l r))). apply rsum_ext; intros j _. apply rsum_swap.
Qed.
Lemma sum3_lin nx ny nz a b f g : sum3 nx ny nz (fun i j l => a * f i j l + b * g i j l) = a * sum3 nx ny nz f + b * sum3 nx ny nz g.
Proof.
  unfold sum3. rewrite <- !rsum_scal, <- rsum_plus. apply rsum_ext; intros i _.
  rewrite <- !rsum_scal, <- rsum_plus. apply rsum_ext; intros j _. rewrite rsum_plus, !rsum_scal. reflexivity.
Qed.

(** the mesh sum of H_ab(k) *)
Lemma mesh_sum_convham w nx ny nz a b (zx zy zz : nat -> Z) : (0 < nx)%nat -> (0 < ny)%nat -> (0 < nz)%nat ->
  (forall r, (r < n_r w)%nat -> r_grid w r a b 0%nat = IZR (zx r) /\ r_grid w r a b 1%nat = IZR (zy r) /\ r_grid w r a b 2%nat = IZR (zz r)) ->
  let keep r := divides3 nx ny nz (zx r) (zy r) (zz r) in
  let part (p : cpx -> R) := INR nx * INR ny * INR nz * rsum (n_r w) (fun r => if keep r then p (hr w r a b) / r_weights w r else 0) in
  sum3 nx ny nz (fun i j l => fst (get_ek_all w nx ny nz i j l a b)) = part fst /\
  sum3 nx ny nz (fun i j l => snd (get_ek_all w nx ny nz i j l a b)) = part snd.
Proof.
  intros Hx Hy Hz Hr keep part.
  assert (P : forall r i j l, (r < n_r w)%nat -> rdotk (r_grid w r a b) (kpoint nx ny nz i j l) = ang (zx r) nx i + ang (zy r) ny j + ang (zz r) nz l).
  { intros r i j l H. destruct (Hr r H) as [A [B C]]. unfold rdotk, ang. rewrite A, B, C. reflexivity. }
  split.
  - rewrite (sum3_ext nx ny nz _ (fun i j l => rsum (n_r w) (term_re w (kpoint nx ny nz i j l) a b))).
    2:{ intros. rewrite get_ek_all_mesh by assumption. rewrite convhamE. reflexivity. }
    rewrite sum3_rsum. unfold part. rewrite <- rsum_scal. apply rsum_ext; intros r H.
    rewrite (sum3_ext nx ny nz _ (fun i j l => fst (hr w r a b) / r_weights w r * cos (ang (zx r) nx i + ang (zy r) ny j + ang (zz r) nz l)
       + - (snd (hr w r a b) / r_weights w r) * sin (ang (zx r) nx i + ang (zy r) ny j + ang (zz r) nz l))).
    2:{ intros. unfold term_re. rewrite P by assumption. unfold Rdiv. ring. }
    rewrite sum3_lin. destruct (phase_sum nx ny nz (zx r) (zy r) (zz r) Hx Hy Hz) as [-> ->]. unfold keep.
    destruct (divides3 nx ny nz (zx r) (zy r) (zz r)); ring.
  - rewrite (sum3_ext nx ny nz _ (fun i j l => rsum (n_r w) (term_im w (kpoint nx ny nz i j l) a b))).
    2:{ intros. rewrite get_ek_all_mesh by assumption. rewrite convhamE. reflexivity. }
    rewrite sum3_rsum. unfold part. rewrite <- rsum_scal. apply rsum_ext; intros r H.
    rewrite (sum3_ext nx ny nz _ (fun i j l => snd (hr w r a b) / r_weights w r * cos (ang (zx r) nx i + ang (zy r) ny j + ang (zz r) nz l)
       + (fst (hr w r a b) / r_weights w r) * sin (ang (zx r) nx i + ang (zy r) ny j + ang (zz r) nz l))).
    2:{ intros. unfold term_im. rewrite P by assumption. unfold Rdiv. ring. }
    rewrite sum3_lin. destruct (phase_sum nx ny nz (zx r) (zy r) (zz r) Hx Hy Hz) as [-> ->]. unfold keep.
    destruct (divides3 nx ny nz (zx r) (zy r) (zz r)); ring.
Qed.

(** square lattice: no hopping vector is a multiple of a mesh with more than two points per axis *)
Definition sq_z : list (Z * Z) := [(1,0); (0,1); (-1,0); (0,-1); (1,1); (1,-1); (-1,1); (-1,-1); (2,0); (0,2); (-2,0); (0,-2)]%Z.
Lemma small_mod z n : (2 < n)%nat -> (-2 <= z <= 2)%Z -> (z mod Z.of_nat n =? 0)%Z = (z =? 0)%Z.
Proof.
  intros Hn Hz. destruct (Z.eqb_spec z 0) as [->|Hne]; [apply Z.eqb_eq, Z.mod_0_l; lia|].
  apply Z.eqb_neq. intros E. apply Z.mod_divide in E; [|lia]. destruct E as [q Hq]. assert (q = 0 \/ q <= -1 \/ 1 <= q)%Z as [->|[?|?]] by lia; nia.
Qed.
Lemma nematic_mean tx ty tppx tppy tpxy nx ny nz : (2 < nx)%nat -> (2 < ny)%nat -> (0 < nz)%nat ->
  sum3 nx ny nz (fun i j l => fst (get_ek (wannier_one_band_2d_nematic tx ty tppx tppy tpxy) nx ny nz i j l)) = 0.
Proof.
  intros Hx Hy Hz.
  pose (zx := fun r => fst (nth r sq_z (0, 0)%Z)). pose (zy := fun r => snd (nth r sq_z (0, 0)%Z)).
  destruct (mesh_sum_convham (wannier_one_band_2d_nematic tx ty tppx tppy tpxy) nx ny nz 0 0 zx zy (fun _ => 0%Z)) as [H _]; try lia.
  - intros r Hr. cbn [n_r wannier_one_band_2d_nematic] in Hr. do 12 (destruct r as [|r]; [cbn; auto|]). lia.
  - unfold get_ek. rewrite H. cbn [n_r wannier_one_band_2d_nematic rsum].
    assert (K : forall x y, (-2 <= x <= 2)%Z -> (-2 <= y <= 2)%Z -> (x =? 0)%Z && (y =? 0)%Z = false -> divides3 nx ny nz x y 0 = false).
    { intros x y H1 H2 H3. unfold divides3. rewrite !small_mod by assumption. rewrite H3. reflexivity. }
    unfold zx, zy. cbn [nth sq_z fst snd]. rewrite !K by (try lia; reflexivity). ring.
Qed.
(** Emery model: the mesh mean of H(k) is the on-site block *)
Definition emery_onsite (ed ep tpd tpp : R) (a b : nat) : R :=
  nth b (nth a [[ed; tpd; tpd]; [tpd; ep; tpp]; [tpd; tpp; ep]] []) 0.
Lemma emery_mean ed ep tpd tpp tpp_p nx ny nz a b : (2 < nx)%nat -> (2 < ny)%nat -> (0 < nz)%nat -> (a < 3)%nat -> (b < 3)%nat ->
  sum3 nx ny nz (fun i j l => fst (get_ek_all (wannier_emery_model ed ep tpd tpp tpp_p) nx ny nz i j l a b)) = INR nx * INR ny * INR nz * emery_onsite ed ep tpd tpp a b /\
  sum3 nx ny nz (fun i j l => snd (get_ek_all (wannier_emery_model ed ep tpd tpp tpp_p) nx ny nz i j l a b)) = 0.
Proof.
  intros Hx Hy Hz Ha Hb.
  pose (zx := fun r => fst (fst (nth r emery_vecs (0, 0, 0)%Z))). pose (zy := fun r => snd (fst (nth r emery_vecs (0, 0, 0)%Z))).
  destruct (mesh_sum_convham (wannier_emery_model ed ep tpd tpp tpp_p) nx ny nz a b zx zy (fun _ => 0%Z)) as [H1 H2]; try lia.
  - intros r Hr. unfold wannier_emery_model in Hr. cbn [n_r] in Hr. do 7 (destruct r as [|r]; [cbn; auto|]). lia.
  - rewrite H1, H2. unfold wannier_emery_model. cbv zeta. cbn [n_r rsum].
    assert (K : forall x y, (-2 <= x <= 2)%Z -> (-2 <= y <= 2)%Z -> (x =? 0)%Z && (y =? 0)%Z = false -> divides3 nx ny nz x y 0 = false).
    { intros x y K1 K2 K3. unfold divides3. rewrite !small_mod by assumption. rewrite K3. reflexivity. }
    assert (K0 : divides3 nx ny nz 0 0 0 = true) by (unfold divides3; rewrite !Z.mod_0_l by lia; reflexivity).
    unfold zx, zy. cbn [nth emery_vecs fst snd]. rewrite K0, !K by (try lia; reflexivity). cbn [hr r_weights].
    destruct a as [|[|[|a]]], b as [|[|[|b]]]; try lia; cbn; split; field.
Qed.
