(** The corrections the code returns. *)
From Coq Require Import Reals ZArith List Lia Lra String.
From Coquelicot Require Import Complex.
From Verif Require Import Base.PyBase Base.PyFacts Model.Matsubara Model.Bubble Model.BubbleAsympt Spec.AsymptSpec Spec.BubbleSpec
  Proofs.BubbleAsymptP Proofs.BubbleAsymptMainP Proofs.BubbleMeshP Proofs.BubbleTailP Proofs.BubbleOrderP Proofs.BubbleP.
Import ListNotations.
Local Open Scope R_scope.
Local Open Scope C_scope.

(** value of the correction for one frequency *)
Definition corr (beta : R) (facs : R * R * R) (c : conv) (niv w : Z) : C :=
  exact_w beta facs w - RtoC (-1 / beta) * zsumC (- niv) niv (fun k => term beta facs (k + sh1 c w) (k + sh2 c w)).

Lemma mapM_ok {A B} (f : A -> res B) (h : A -> B) l : (forall x, In x l -> f x = Ok (h x)) -> mapM f l = Ok (map h l).
Proof.
  induction l as [|x l IH]; intros H; [reflexivity|]. cbn [mapM map]. rewrite (H x (or_introl eq_refl)). cbn [bind].
  rewrite IH by (intros y Hy; apply H; now right). reflexivity.
Qed.
Lemma map2_maps {A B D E} (f : B -> D -> E) (g : A -> B) (h : A -> D) l : map2 f (map g l) (map h l) = map (fun x => f (g x) (h x)) l.
Proof. induction l as [|x l IH]; [reflexivity|]. cbn. now rewrite IH. Qed.

Section Corr.
Variable g : bgen.
Notation wn := (bg_wn g).
Notation beta := (bg_beta g).
Lemma sum_rows n niv facs c : (0 <= niv)%Z -> (forall w, In w wn -> (niv + Z.abs w <= n)%Z) ->
  (let! rows := mapM (asympt_sum_w (v_arr beta n) niv facs (name c)) wn in Ok (map (fun x => Cmult x (RtoC (-1 / beta))) rows))
  = Ok (map (fun w => RtoC (-1 / beta) * zsumC (- niv) niv (fun k => term beta facs (k + sh1 c w) (k + sh2 c w))) wn).
Proof.
  intros Hn Hw. rewrite (mapM_ok _ (fun w => zsumC (- niv) niv (fun k => term beta facs (k + sh1 c w) (k + sh2 c w)))).
  - cbn [bind]. rewrite map_map. f_equal. apply map_ext. intros w. apply Cmult_comm.
  - intros w Hin. apply asympt_sum_w_ok; [exact Hn|now apply Hw].
Qed.
Lemma corr_loc niv c : (0 <= niv)%Z -> wn <> [] ->
  get_asymptotic_correction g niv (name c) = Ok (map (corr beta (get_asympt_prefactors g) c niv) wn).
Proof.
  intros Hn Hw. destruct (max_abs_ok Hw) as [m [E1 E2 _]]. unfold get_asymptotic_correction, get_asympt_sum. rewrite E1. cbn [bind].
  rewrite sum_rows by (try exact Hn; intros w Hin; specialize (E2 w Hin); lia). cbn [bind]. unfold get_exact_asymptotics. rewrite map2_maps. reflexivity.
Qed.
Lemma corr_q niv c ql : (0 <= niv)%Z -> (forall w, In w wn -> (Z.abs w <= zlen wn)%Z) ->
  get_asymptotic_correction_q g niv ql (name c) = Ok (map (fun q => map (corr beta (get_asympt_prefactors_q g q) c niv) wn) ql).
Proof.
  intros Hn Hw. unfold get_asymptotic_correction_q, get_asympt_sum_q.
  rewrite (mapM_ok _ (fun q => map (fun w => RtoC (-1 / beta) * zsumC (- niv) niv (fun k => term beta (get_asympt_prefactors_q g q) (k + sh1 c w) (k + sh2 c w))) wn)).
  - cbn [bind]. unfold get_exact_asymptotics_q. rewrite map2_maps. f_equal. apply map_ext. intros q. rewrite map2_maps. reflexivity.
  - intros q _. apply sum_rows; [exact Hn|]. intros w Hin. specialize (Hw w Hin). lia.
Qed.
End Corr.

(** * Limits *)
Section Limits.
Variable beta : R.
Hypothesis Hb : (beta <> 0)%R.
Lemma corr_tail facs c niv w : (0 <= niv)%Z -> let F := fun k => term beta facs (k + sh1 c w) (k + sh2 c w) in
  Ccv (fun M => RtoC (-1 / beta) * (zsumC (- Z.of_nat M) (- niv) F + zsumC niv (Z.of_nat M) F)) (corr beta facs c niv w).
Proof.
  intros Hn F. assert (H := exact_cv beta Hb facs c w). unfold corr. fold F.
  assert (H2 := Ccv_minus _ _ _ _ H (Ccv_const (RtoC (-1 / beta) * zsumC (- niv) niv F))).
  refine (Ccv_ext_from (Z.to_nat niv) _ _ _ _ H2). intros M HM. unfold tsum. fold F.
  rewrite (zsumC_split (- Z.of_nat M) (- niv) (Z.of_nat M) F), (zsumC_split (- niv) niv (Z.of_nat M) F) by lia. ring.
Qed.
Lemma corr_vanishes facs c w : Ccv (fun N => corr beta facs c (Z.of_nat N) w) (RtoC 0).
Proof.
  assert (H := exact_cv beta Hb facs c w).
  assert (H2 := Ccv_minus _ _ _ _ (Ccv_const (exact_w beta facs w)) H).
  replace (RtoC 0) with (exact_w beta facs w - exact_w beta facs w) by ring. exact H2.
Qed.
(** core sum plus correction *)
Lemma core_plus_corr facs c w (G : Z -> C) (K : R) n0 : (0 <= K)%R ->
  (forall k, (n0 <= Z.abs k)%Z -> (Cmod (G k - term beta facs (k + sh1 c w) (k + sh2 c w))%C <= K / IZR (Z.abs k) ^ 5)%R) ->
  exists chi K' n', Ccv (fun M => RtoC (-1 / beta) * zsumC (- Z.of_nat M) (Z.of_nat M) G) chi /\
    forall niv, (n' <= niv)%Z -> (Cmod (RtoC (-1 / beta) * zsumC (- niv) niv G + corr beta facs c niv w - chi)%C <= K' / IZR niv ^ 4)%R.
Proof.
  intros HK HG. set (F := fun k => term beta facs (k + sh1 c w) (k + sh2 c w)). set (f := fun k => G k - F k).
  destruct (sum_order5_cv f K n0 HK HG) as [l Hl].
  set (cc := RtoC (-1 / beta)). assert (He := exact_cv beta Hb facs c w). fold cc in He.
  set (chi := cc * l + exact_w beta facs w).
  assert (Hchi : Ccv (fun M => cc * zsumC (- Z.of_nat M) (Z.of_nat M) G) chi).
  { refine (Ccv_ext _ _ _ _ (Ccv_plus _ _ _ _ (Ccv_scal cc _ _ Hl) He)). intros M. unfold tsum, f. rewrite zsumC_minus. fold F. ring. }
  set (B := (Cmod cc * (2 * K))%R).
  exists chi, (B * 16)%R, (Z.max n0 2). split; [exact Hchi|]. intros niv Hn.
  assert (Hd : cc * zsumC (- niv) niv G + corr beta facs c niv w - chi = cc * (zsumC (- niv) niv f - l)).
  { unfold corr, chi, f. rewrite zsumC_minus. fold F cc. ring. }
  rewrite Hd, Cmod_mult.
  (* |sum_{|k|<niv} f - l| <= 2K/(niv-1)^4 by passing to the limit *)
  set (b := (2 * K * / IZR (niv - 1) ^ 4)%R).
  assert (Hlim : (Cmod (zsumC (- niv) niv f - l)%C <= b)%R).
  { apply Rnot_lt_le. intros Hlt. destruct (Hl ((Cmod (zsumC (- niv) niv f - l)%C - b)%R) ltac:(lra)) as [N HN].
    specialize (HN (N + Z.to_nat niv)%nat ltac:(lia)). set (M := Z.of_nat (N + Z.to_nat niv)) in *.
    assert (HM : (niv <= M)%Z) by (unfold M; lia).
    assert (Ht := tail_bound f K niv M ltac:(lia) HM HK (fun n H => HG n ltac:(lia))). fold b in Ht.
    assert (Es : zsumC (- niv) niv f - l = (zsumC (- M) M f - l) - (zsumC (- M) (- niv) f + zsumC niv M f)).
    { rewrite (zsumC_split (- M) (- niv) M f), (zsumC_split (- niv) niv M f) by lia. ring. }
    assert (Hc := Cmod_triangle (zsumC (- M) M f - l) (- (zsumC (- M) (- niv) f + zsumC niv M f))). rewrite Cmod_opp in Hc.
    change (zsumC (- M) M f - l + - (zsumC (- M) (- niv) f + zsumC niv M f)) with ((zsumC (- M) M f - l) - (zsumC (- M) (- niv) f + zsumC niv M f)) in Hc. rewrite <- Es in Hc. lra. }
  assert (Hp : (0 < IZR (niv - 1))%R) by (apply (IZR_lt 0); lia).
  assert (Hh : (IZR niv / 2 <= IZR (niv - 1))%R). { rewrite minus_IZR. assert (2 <= IZR niv)%R by (apply (IZR_le 2); lia). lra. }
  assert (Hq : (0 < IZR niv)%R) by (apply (IZR_lt 0); lia).
  assert (Hi : (/ IZR (niv - 1) ^ 4 <= 16 / IZR niv ^ 4)%R).
  { replace (16 / IZR niv ^ 4)%R with (/ (IZR niv / 2) ^ 4)%R by (field; lra). apply Rinv_le_contravar; [apply pow_lt; lra|]. apply pow_incr. lra. }
  assert (HC := Cmod_ge_0 cc).
  apply Rle_trans with (Cmod cc * b)%R; [apply Rmult_le_compat_l; assumption|].
  replace (B * 16 / IZR niv ^ 4)%R with (Cmod cc * (2 * K * (16 / IZR niv ^ 4)))%R by (unfold B; field; lra).
  apply Rmult_le_compat_l; [exact HC|]. unfold b. apply Rmult_le_compat_l; [lra|exact Hi].
Qed.
End Limits.

(** * Momentum averages *)
Section Gen.
Variable g : bgen.
Hypothesis Hb : (bg_beta g <> 0)%R.
Hypothesis Hx : (0 < bg_nx g)%Z.
Hypothesis Hy : (0 < bg_ny g)%Z.
Hypothesis Hz : (0 < bg_nz g)%Z.
Notation nx := (bg_nx g).
Notation ny := (bg_ny g).
Notation nz := (bg_nz g).
Notation beta := (bg_beta g).
Notation cavg := (avgC nx ny nz).
Lemma Cmod_avg (f : Z * Z * Z -> C) : Cmod (cavg f) = (/ IZR (nx * ny * nz) * Cmod (fold_right Cplus (RtoC 0) (map f (mesh nx ny nz))))%R.
Proof.
  unfold avgC, Cdiv. assert (Hs := size_pos nx ny nz Hx Hy Hz). rewrite Cmod_mult, <- RtoC_inv by lra. rewrite Cmod_R, Rabs_right. 2:{ left. now apply Rinv_0_lt_compat. } ring.
Qed.
Lemma order_avg (F : Z * Z * Z -> Z -> C) : (forall p, exists K n0, (0 <= K)%R /\ forall k, (n0 <= Z.abs k)%Z -> (Cmod (F p k) <= K / IZR (Z.abs k) ^ 5)%R) ->
  exists K n0, (0 <= K)%R /\ forall k, (n0 <= Z.abs k)%Z -> (Cmod (cavg (fun p => F p k)) <= K / IZR (Z.abs k) ^ 5)%R.
Proof.
  intros H. assert (Hs := size_pos nx ny nz Hx Hy Hz). destruct (order_list (mesh nx ny nz) F (fun p _ => H p)) as [K [n0 [HK HF]]].
  exists (/ IZR (nx * ny * nz) * K)%R, n0. split; [apply Rmult_le_pos; [left; now apply Rinv_0_lt_compat|exact HK]|]. intros k Hk. rewrite Cmod_avg.
  unfold Rdiv. rewrite Rmult_assoc. apply Rmult_le_compat_l; [left; now apply Rinv_0_lt_compat|]. now apply HF.
Qed.
Hypothesis Hmean : avgR nx ny nz (bg_ek g) = 0%R.
Variable sig : Z -> C.
Hypothesis Hsig : sig_tail beta (bg_smom0 g) (bg_smom1 g) sig.
Notation G := (fun k n => green beta (bg_mu g) (bg_ek g k) sig n).
Lemma q_order q c w : exists K n0, (0 <= K)%R /\ forall n, (n0 <= Z.abs n)%Z ->
  (Cmod (cavg (fun k => G k (n + sh1 c w)%Z * G (kq nx ny nz k q) (n + sh2 c w)%Z) - term beta (get_asympt_prefactors_q g q) (n + sh1 c w) (n + sh2 c w))%C <= K / IZR (Z.abs n) ^ 5)%R.
Proof.
  destruct (order_avg (fun k n => G k (n + sh1 c w)%Z * G (kq nx ny nz k q) (n + sh2 c w)%Z - prod4 beta (xk g k) (xk g (kq nx ny nz k q)) (bg_smom1 g) (n + sh1 c w) (n + sh2 c w))) as [K [n0 [HK HF]]].
  { intros p. exact (green_order beta (bg_mu g) (bg_smom0 g) (bg_smom1 g) sig Hb Hsig (bg_ek g p) (bg_ek g (kq nx ny nz p q)) (sh1 c w) (sh2 c w)). }
  exists K, n0. split; [exact HK|]. intros n Hn. specialize (HF n Hn). rewrite avgC_minus in HF. rewrite (term_q g Hx Hy Hz Hmean) in HF. exact HF.
Qed.
Lemma loc_order c w : exists K n0, (0 <= K)%R /\ forall n, (n0 <= Z.abs n)%Z ->
  (Cmod (cavg (fun k => G k (n + sh1 c w)%Z) * cavg (fun k => G k (n + sh2 c w)%Z) - term beta (get_asympt_prefactors g) (n + sh1 c w) (n + sh2 c w))%C <= K / IZR (Z.abs n) ^ 5)%R.
Proof.
  destruct (order_avg (fun k n => cavg (fun k' => G k (n + sh1 c w)%Z * G k' (n + sh2 c w)%Z - prod4 beta (xk g k) (xk g k') (bg_smom1 g) (n + sh1 c w) (n + sh2 c w)))) as [K [n0 [HK HF]]].
  { intros p. apply (order_avg (fun k' n => G p (n + sh1 c w)%Z * G k' (n + sh2 c w)%Z - prod4 beta (xk g p) (xk g k') (bg_smom1 g) (n + sh1 c w) (n + sh2 c w))).
    intros p'. exact (green_order beta (bg_mu g) (bg_smom0 g) (bg_smom1 g) sig Hb Hsig (bg_ek g p) (bg_ek g p') (sh1 c w) (sh2 c w)). }
  exists K, n0. split; [exact HK|]. intros n Hn. specialize (HF n Hn).
  rewrite (avgC_ext nx ny nz _ (fun k => cavg (fun k' => G k (n + sh1 c w)%Z * G k' (n + sh2 c w)%Z) - cavg (fun k' => prod4 beta (xk g k) (xk g k') (bg_smom1 g) (n + sh1 c w) (n + sh2 c w)))) in HF by (intros; apply avgC_minus).
  rewrite avgC_minus, (term_loc g Hx Hy Hz Hmean) in HF.
  rewrite (avgC_ext nx ny nz (fun k => cavg (fun k' => G k (n + sh1 c w)%Z * G k' (n + sh2 c w)%Z)) (fun k => cavg (fun k' => G k' (n + sh2 c w)%Z) * G k (n + sh1 c w)%Z)) in HF
    by (intros k; rewrite avgC_scal; apply Cmult_comm).
  rewrite avgC_scal, Cmult_comm in HF. exact HF.
Qed.
End Gen.

(** * The average over q *)
Section QAvg.
Variable g : bgen.
Hypothesis Hx : (0 < bg_nx g)%Z.
Hypothesis Hy : (0 < bg_ny g)%Z.
Hypothesis Hz : (0 < bg_nz g)%Z.
Notation nx := (bg_nx g).
Notation ny := (bg_ny g).
Notation nz := (bg_nz g).
Lemma kq_comm k q : kq nx ny nz k q = kq nx ny nz q k.
Proof. destruct k as [[x y] z], q as [[qx qy] qz]. cbn. f_equal; [f_equal|]; f_equal; lia. Qed.
Lemma foldR_swap {A B} (l : list A) (l' : list B) (f : A -> B -> R) :
  fold_right Rplus 0%R (map (fun a => fold_right Rplus 0%R (map (f a) l')) l) = fold_right Rplus 0%R (map (fun b => fold_right Rplus 0%R (map (fun a => f a b) l)) l').
Proof.
  induction l as [|a l IH]; cbn; [rewrite foldR_const; lra|]. rewrite IH. rewrite <- (foldR_plus l' (f a) (fun b => fold_right Rplus 0%R (map (fun a0 => f a0 b) l))). reflexivity.
Qed.
Lemma avgR_swap (f : Z * Z * Z -> Z * Z * Z -> R) : avgR nx ny nz (fun a => avgR nx ny nz (f a)) = avgR nx ny nz (fun b => avgR nx ny nz (fun a => f a b)).
Proof.
  unfold avgR. f_equal. unfold Rdiv. set (c := (/ IZR (nx * ny * nz))%R).
  rewrite (map_ext (fun a => (fold_right Rplus 0%R (map (f a) (mesh nx ny nz)) * c)%R) (fun a => (c * fold_right Rplus 0%R (map (f a) (mesh nx ny nz)))%R)) by (intros; lra).
  rewrite (map_ext (fun b => (fold_right Rplus 0%R (map (fun a => f a b) (mesh nx ny nz)) * c)%R) (fun b => (c * fold_right Rplus 0%R (map (fun a => f a b) (mesh nx ny nz)))%R)) by (intros; lra).
  rewrite !foldR_scal. f_equal. apply foldR_swap.
Qed.
Lemma avg_ek_ekpq : avgR nx ny nz (ek_ekpq g) = (ek_mom1 g ^ 2)%R.
Proof.
  rewrite (avgR_ext nx ny nz _ (fun q => avgR nx ny nz (fun k => bg_ek g k * bg_ek g (kq nx ny nz k q))%R)) by (intros; apply ek_ekpq_avg).
  rewrite avgR_swap. rewrite (avgR_ext nx ny nz _ (fun k => ek_mom1 g * bg_ek g k)%R).
  - rewrite avgR_scal. unfold ek_mom1. rewrite mesh_mean_avg. ring.
  - intros k. rewrite avgR_scal. rewrite (avgR_ext nx ny nz _ (fun q => bg_ek g (kq nx ny nz q k))) by (intros; now rewrite kq_comm).
    rewrite (avgR_shift nx ny nz Hx Hy Hz (bg_ek g)). unfold ek_mom1. rewrite mesh_mean_avg. ring.
Qed.
(** the correction is affine in the third prefactor *)
Lemma corr_affine beta f1 f2 c niv w : exists u0 u1, forall f3, corr beta (f1, f2, f3) c niv w = u0 + RtoC f3 * u1.
Proof.
  set (T0 := zsumC (- niv) niv (fun k => term beta (f1, f2, 0%R) (k + sh1 c w) (k + sh2 c w))).
  set (T1 := zsumC (- niv) niv (fun k => / inu beta (k + sh1 c w) * / inu beta (k + sh1 c w) * (/ inu beta (k + sh2 c w) * / inu beta (k + sh2 c w)))).
  assert (HT : forall f3, zsumC (- niv) niv (fun k => term beta (f1, f2, f3) (k + sh1 c w) (k + sh2 c w)) = T0 + RtoC f3 * T1).
  { intros f3. unfold T0, T1. rewrite <- zsumC_scal, <- zsumC_plus. apply zsumC_ext. intros n _. unfold term. cbv zeta. ring. }
  destruct (Z.eqb_spec w 0) as [Hw|Hw].
  - exists (RtoC (beta / 4 - beta ^ 3 / 24 * f2) - RtoC (-1 / beta) * T0), (- RtoC (beta ^ 3 / 48) - RtoC (-1 / beta) * T1). intros f3.
    unfold corr, exact_w. rewrite HT. rewrite (proj2 (Z.eqb_eq w 0) Hw). rewrite (RtoC_minus (beta / 4 - beta ^ 3 / 24 * f2)), RtoC_mult. ring.
  - set (iw := Cmult (RtoC (IZR w * 2 * PI / beta)) Ci). set (c0 := Cmult (RtoC (- beta / 2 * 1)) (Cinv (Cmult iw iw))).
    exists (c0 * RtoC f2 - RtoC (-1 / beta) * T0), (- c0 - RtoC (-1 / beta) * T1). intros f3.
    unfold corr, exact_w. rewrite HT. rewrite (proj2 (Z.eqb_neq w 0) Hw). fold iw. cbv zeta. fold c0. rewrite RtoC_minus. ring.
Qed.
Lemma corr_q_avg c niv w : avgC nx ny nz (fun q => corr (bg_beta g) (get_asympt_prefactors_q g q) c niv w) = corr (bg_beta g) (get_asympt_prefactors g) c niv w.
Proof.
  unfold get_asympt_prefactors, get_asympt_prefactors_q. set (f1 := (bg_mu g - bg_smom0 g)%R). set (f2 := (f1 ^ 2 + ek_mom2 g - bg_smom1 g)%R).
  destruct (corr_affine (bg_beta g) f1 f2 c niv w) as [u0 [u1 Hu]].
  rewrite (avgC_ext nx ny nz _ (fun q => u0 + u1 * RtoC (f1 ^ 2 + ek_ekpq g q)%R)) by (intros q; rewrite Hu; ring).
  rewrite avgC_plus, (avgC_const nx ny nz Hx Hy Hz), avgC_scal, (avgC_R nx ny nz Hx Hy Hz).
  rewrite (avgR_cst_plus nx ny nz Hx Hy Hz), avg_ek_ekpq, Hu. ring.
Qed.
End QAvg.
