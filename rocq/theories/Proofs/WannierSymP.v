(** Hermiticity, Emery model, symmetry of the mesh values. *)
From Coq Require Import Reals List ZArith Lra Lia Psatz Permutation.
From Verif Require Import Model.Wannier Spec.WannierSpec Proofs.WannierP.
Import ListNotations.
Local Open Scope R_scope.

Definition lsum (l : list R) : R := fold_right Rplus 0 l.
Lemma lsum_app a b : lsum (a ++ b) = lsum a + lsum b.
Proof. unfold lsum. induction a as [|x a IH]; cbn [app fold_right]; [ring|]. rewrite IH. ring. Qed.
Lemma lsum_perm a b : Permutation a b -> lsum a = lsum b.
Proof. unfold lsum. induction 1; cbn [fold_right] in *; lra. Qed.
Lemma rsum_lsum n f : rsum n f = lsum (map f (seq 0 n)).
Proof. induction n as [|n IH]; [reflexivity|]. rewrite seq_S, map_app, lsum_app. cbn [rsum]. rewrite IH. unfold lsum at 3. cbn [map fold_right]. rewrite Nat.add_0_l. ring. Qed.
Lemma rsum_reindex n p f : (forall r, (r < n)%nat -> (p r < n)%nat /\ p (p r) = r) -> rsum n (fun r => f (p r)) = rsum n f.
Proof.
  intros H. rewrite !rsum_lsum, <- (map_map p f). apply lsum_perm, Permutation_map.
  apply NoDup_Permutation_bis.
  - apply (NoDup_map_inv p). rewrite map_map.
    rewrite (map_ext_in _ (fun x => x)); [rewrite map_id; apply seq_NoDup|].
    intros r Hr. apply in_seq in Hr. apply H. lia.
  - rewrite map_length, seq_length. lia.
  - intros y Hy. apply in_map_iff in Hy. destruct Hy as [r [<- Hr]]. apply in_seq in Hr. apply in_seq.
    destruct (H r) as [H1 _]; lia.
Qed.
Lemma rsum_opp n f : rsum n (fun r => - f r) = - rsum n f.
Proof. induction n as [|n IH]; cbn; [ring|]. rewrite IH. ring. Qed.

Lemma convham_hermitian w k a b : hermitian_hopping w -> convham w k b a = conj (convham w k a b).
Proof.
  intros [p [Hp H]]. rewrite !convhamE. unfold conj. cbn [fst snd].
  rewrite <- (rsum_reindex (n_r w) p (term_re w k b a) Hp), <- (rsum_reindex (n_r w) p (term_im w k b a) Hp).
  rewrite <- rsum_opp.
  assert (E : forall r, (r < n_r w)%nat -> rdotk (r_grid w (p r) b a) k = - rdotk (r_grid w r a b) k).
  { intros r Hr. destruct (H r a b Hr) as [H1 _]. unfold rdotk. rewrite !H1. ring. }
  f_equal; apply rsum_ext; intros r Hr; unfold term_re, term_im; rewrite (E r Hr), cos_neg, sin_neg;
    destruct (H r a b Hr) as [_ [-> ->]]; unfold conj; cbn [fst snd]; unfold Rdiv; ring.
Qed.
Lemma convham_diag_real w k a : hermitian_hopping w -> snd (convham w k a a) = 0.
Proof. intros H. pose proof (convham_hermitian w k a a H) as E. apply (f_equal snd) in E. unfold conj in E. cbn [snd] in E. lra. Qed.

(** ** Emery model *)
Lemma emery_ok ed ep tpd tpp tpp_p k a b : (a < 3)%nat -> (b < 3)%nat ->
  convham (wannier_emery_model ed ep tpd tpp tpp_p) k a b = emery_hk (k 0%nat) (k 1%nat) ed ep tpp tpd tpp_p a b.
Proof.
  intros Ha Hb. rewrite convhamE. unfold wannier_emery_model. cbv zeta. cbn [n_r rsum]. unfold term_re, term_im, rdotk.
  cbn [hr r_grid r_weights]. unfold create_r_grid, emery_vecs. cbn [nth vec3].
  set (x := k 0%nat). set (y := k 1%nat). set (z := k 2%nat).
  change (IZR 0) with 0. 
  replace (0 * x + 0 * y + 0 * z) with 0 by ring.
  replace (IZR 1 * x + 0 * y + 0 * z) with x by ring. replace (0 * x + IZR 1 * y + 0 * z) with y by ring.
  replace (IZR (-1) * x + 0 * y + 0 * z) with (- x) by (change (IZR (-1)) with (-1); ring).
  replace (0 * x + IZR (-1) * y + 0 * z) with (- y) by (change (IZR (-1)) with (-1); ring).
  replace (IZR 1 * x + IZR (-1) * y + 0 * z) with (x - y) by (change (IZR (-1)) with (-1); ring).
  replace (IZR (-1) * x + IZR 1 * y + 0 * z) with (- (x - y)) by (change (IZR (-1)) with (-1); ring).
  rewrite cos_0, sin_0.
  assert (Hab : (a = 0 \/ a = 1 \/ a = 2)%nat /\ (b = 0 \/ b = 1 \/ b = 2)%nat) by lia.
  destruct Hab as [[-> | [-> | ->]] [-> | [-> | ->]]];
    cbn [fold_left emery_inserts insert_hr index_of v3eq Z.eqb andb Nat.eqb Nat.sub fst snd cre emery_hk Pos.eqb emery_vecs];
    unfold expi, cmul, cadd, cre; cbn [fst snd]; rewrite ?cos_neg, ?sin_neg, ?cos_minus, ?sin_minus; f_equal; field.
Qed.
Lemma emery_hermitian_hk kx ky ed ep tpp tpd tpp_p a b : emery_hk kx ky ed ep tpp tpd tpp_p b a = conj (emery_hk kx ky ed ep tpp tpd tpp_p a b).
Proof.
  destruct a as [|[|[|a]]], b as [|[|[|b]]]; unfold emery_hk, conj, expi, cmul, cadd, cre; cbn [fst snd];
    rewrite ?cos_neg, ?sin_neg; f_equal; ring.
Qed.

(** ** symmetry of the mesh values *)
Lemma cos_mesh_neg n i : (i < n)%nat -> forall m : R, (exists z : Z, m = IZR z) ->
  cos (m * mesh_k n ((n - i) mod n)) = cos (m * mesh_k n i).
Proof.
  intros H m [z ->]. destruct i as [|i].
  - rewrite Nat.sub_0_r, Nat.mod_same by lia. reflexivity.
  - rewrite Nat.mod_small by lia. unfold mesh_k. rewrite minus_INR by lia.
    assert (INR n <> 0) by (apply not_0_INR; lia).
    replace (IZR z * (2 * PI * (INR n - INR (S i)) / INR n)) with (- (IZR z * (2 * PI * INR (S i) / INR n)) + 2 * IZR z * PI) by (field; assumption).
    rewrite cos_period_Z, cos_neg. reflexivity.
Qed.
Lemma get_ek_nematic tx ty tppx tppy tpxy nkx nky nkz ix iy iz : (ix < nkx)%nat -> (iy < nky)%nat -> (iz < nkz)%nat ->
  get_ek (wannier_one_band_2d_nematic tx ty tppx tppy tpxy) nkx nky nkz ix iy iz
  = (- 2 * tx * cos (mesh_k nkx ix) - 2 * ty * cos (mesh_k nky iy) - 4 * tpxy * cos (mesh_k nkx ix) * cos (mesh_k nky iy)
     - 2 * tppx * cos (2 * mesh_k nkx ix) - 2 * tppy * cos (2 * mesh_k nky iy), 0).
Proof. intros H1 H2 H3. unfold get_ek. rewrite get_ek_all_mesh by assumption. rewrite square_disp. reflexivity. Qed.
Lemma get_ek_square t tp tpp nkx nky nkz ix iy iz : (ix < nkx)%nat -> (iy < nky)%nat -> (iz < nkz)%nat ->
  get_ek (wannier_one_band_2d_t_tp_tpp t tp tpp) nkx nky nkz ix iy iz = (ek_square (mesh_k nkx ix) (mesh_k nky iy) t tp tpp, 0).
Proof. intros H1 H2 H3. unfold get_ek. rewrite get_ek_all_mesh by assumption. rewrite t_tp_tpp_disp. reflexivity. Qed.
Lemma nematic_inv_x tx ty tppx tppy tpxy nkx nky nkz ix iy iz : (ix < nkx)%nat -> (iy < nky)%nat -> (iz < nkz)%nat ->
  let e := get_ek (wannier_one_band_2d_nematic tx ty tppx tppy tpxy) nkx nky nkz in
  e ((nkx - ix) mod nkx)%nat iy iz = e ix iy iz /\ e ix ((nky - iy) mod nky)%nat iz = e ix iy iz /\ e ix iy ((nkz - iz) mod nkz)%nat = e ix iy iz.
Proof.
  intros H1 H2 H3 e. unfold e.
  assert (Hx : ((nkx - ix) mod nkx < nkx)%nat) by (apply Nat.mod_upper_bound; lia).
  assert (Hy : ((nky - iy) mod nky < nky)%nat) by (apply Nat.mod_upper_bound; lia).
  assert (Hz : ((nkz - iz) mod nkz < nkz)%nat) by (apply Nat.mod_upper_bound; lia).
  rewrite !get_ek_nematic by assumption.
  pose proof (cos_mesh_neg nkx ix H1 2 (ex_intro _ 2%Z eq_refl)) as A2.
  pose proof (cos_mesh_neg nky iy H2 2 (ex_intro _ 2%Z eq_refl)) as B2.
  pose proof (cos_mesh_neg nkx ix H1 1 (ex_intro _ 1%Z eq_refl)) as A1.
  pose proof (cos_mesh_neg nky iy H2 1 (ex_intro _ 1%Z eq_refl)) as B1.
  rewrite !Rmult_1_l in A1, B1. rewrite A1, A2, B1, B2. auto.
Qed.
Lemma square_swap t tp tpp nk nkz ix iy iz : (ix < nk)%nat -> (iy < nk)%nat -> (iz < nkz)%nat ->
  get_ek (wannier_one_band_2d_t_tp_tpp t tp tpp) nk nk nkz iy ix iz = get_ek (wannier_one_band_2d_t_tp_tpp t tp tpp) nk nk nkz ix iy iz.
Proof. intros H1 H2 H3. rewrite !get_ek_square by assumption. f_equal. unfold ek_square. ring. Qed.

(** ** the older dispersion functions *)
Lemma ek_3d_square t tp tpp kx ky kz : ek_3d (one_band_2d_t_tp_tpp t tp tpp) kx ky kz = ek_square kx ky t tp tpp.
Proof. unfold ek_3d, ek_square, one_band_2d_t_tp_tpp, mat3. cbn [nth]. rewrite cos_plus, cos_minus. ring. Qed.
Lemma ekpq_ek h kx ky kz qx qy qz : ekpq_3d kx ky kz qx qy qz h = ek_3d h (kx + qx) (ky + qy) (kz + qz).
Proof. reflexivity. Qed.
Lemma ek_3d_nematic tx ty tppx tppy tpxy k :
  convham (wannier_one_band_2d_nematic tx ty tppx tppy tpxy) k 0 0
  = (ek_3d (one_band_2d_nematic tx ty tppx tppy tpxy) (k 0%nat) (k 1%nat) (k 2%nat), 0).
Proof. rewrite square_disp. f_equal. unfold ek_3d, one_band_2d_nematic, mat3. cbn [nth]. rewrite cos_plus, cos_minus. ring. Qed.
Lemma square_hermitian tx ty tppx tppy tpxy : hermitian_hopping (wannier_one_band_2d_nematic tx ty tppx tppy tpxy).
Proof.
  exists (fun r => nth r [2; 3; 0; 1; 7; 6; 5; 4; 10; 11; 8; 9]%nat 0%nat). split.
  - intros r Hr. cbn in Hr. do 12 (destruct r as [|r]; [cbn; split; [lia|reflexivity]|]). lia.
  - intros r a b Hr. cbn in Hr.
    do 12 (destruct r as [|r]; [cbn; split; [intros [|[|d]]; cbn; ring|split; [reflexivity|unfold conj, cre; cbn; f_equal; ring]]|]). lia.
Qed.
Lemma emery_hermitian ed ep tpd tpp tpp_p k a b : (a < 3)%nat -> (b < 3)%nat ->
  convham (wannier_emery_model ed ep tpd tpp tpp_p) k b a = conj (convham (wannier_emery_model ed ep tpd tpp tpp_p) k a b).
Proof. intros Ha Hb. rewrite !emery_ok by assumption. apply emery_hermitian_hk. Qed.
(** create_orbs *)
Lemma create_orbs_wrong : exists r a b d, (r < 7)%nat /\ (a < 3)%nat /\ (b < 3)%nat /\ (d < 2)%nat /\
  create_orbs 3 r a b d <> (match d with O => INR (a + 1) | _ => INR (b + 1) end).
Proof.
  exists 3%nat, 0%nat, 0%nat, 0%nat. do 4 (split; [lia|]). cbn. lra.
Qed.

Lemma conj_all (A B C : Prop) : A -> B -> C -> A /\ B /\ C. Proof. auto. Qed.
Lemma ek_3d_z_wrong : exists h kx ky kz,
  ek_3d h kx ky kz <> - 2 * (h 0%nat 0%nat * cos kx + h 0%nat 1%nat * cos ky + h 0%nat 2%nat * cos kz)
    - 2 * (h 1%nat 0%nat * cos (kx + ky) + h 1%nat 1%nat * cos (kx - ky))
    - 2 * (h 2%nat 0%nat * cos (2 * kx) + h 2%nat 1%nat * cos (2 * ky) + h 2%nat 2%nat * cos (2 * kz)).
Proof.
  exists (mat3 0 0 0 0 0 0 0 0 1), 0, 0, PI. unfold ek_3d, mat3. cbn [nth]. rewrite cos_PI, cos_2PI. lra.
Qed.
Lemma nematic_no_swap : exists tx ty tppx tppy tpxy nk ix iy, (ix < nk)%nat /\ (iy < nk)%nat /\
  get_ek (wannier_one_band_2d_nematic tx ty tppx tppy tpxy) nk nk 1 iy ix 0 <> get_ek (wannier_one_band_2d_nematic tx ty tppx tppy tpxy) nk nk 1 ix iy 0.
Proof.
  exists 1, 0, 0, 0, 0, 2%nat, 0%nat, 1%nat. split; [lia|]. split; [lia|]. rewrite !get_ek_nematic by lia.
  replace (mesh_k 2 0) with 0 by (unfold mesh_k; cbn; field). replace (mesh_k 2 1) with PI by (unfold mesh_k; cbn; field).
  rewrite cos_0, cos_PI. intros H. injection H. intros H'. lra.
Qed.
Lemma light_vertex_mesh_deriv w der nkx nky nkz ix iy iz : (der < 3)%nat -> (ix < nkx)%nat -> (iy < nky)%nat -> (iz < nkz)%nat ->
  let k : kvec := fun d => match d with O => mesh_k nkx ix | S O => mesh_k nky iy | _ => mesh_k nkz iz end in
  cderiv (fun x => convham w (with_k k der x) 0 0) (k der) (get_light_vertex w der nkx nky nkz ix iy iz).
Proof. intros Hd H1 H2 H3 k. rewrite get_light_vertex_mesh by assumption. exact (light_vertex_deriv w der k 0 0 Hd). Qed.
Lemma square_light_vertex t tp tpp k :
  light_vertex (wannier_one_band_2d_t_tp_tpp t tp tpp) 0 k 0 0 = (del_ek_del_kx_square (k 0%nat) (k 1%nat) t tp tpp, 0).
Proof.
  destruct (light_vertex_deriv (wannier_one_band_2d_t_tp_tpp t tp tpp) 0 k 0 0 ltac:(lia)) as [H1 H2].
  apply cpx_eq; cbn [fst snd].
  - eapply uniqueness_limite; [exact H1|]. eapply deriv_ext; [|apply ek_square_deriv]. intros y. rewrite t_tp_tpp_disp. reflexivity.
  - eapply uniqueness_limite; [exact H2|]. eapply deriv_ext; [|apply (derivable_pt_lim_const 0)]. intros y. rewrite t_tp_tpp_disp. reflexivity.
Qed.
Lemma square_light_vertex_odd t tp tpp k :
  light_vertex (wannier_one_band_2d_t_tp_tpp t tp tpp) 0 (fun d => - k d) 0 0
  = (- fst (light_vertex (wannier_one_band_2d_t_tp_tpp t tp tpp) 0 k 0 0), 0).
Proof.
  rewrite !square_light_vertex. cbn [fst]. f_equal. unfold del_ek_del_kx_square.
  replace (2 * - k 0%nat) with (- (2 * k 0%nat)) by ring. rewrite !sin_neg, !cos_neg. ring.
Qed.
