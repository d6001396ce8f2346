(** Averages over the mesh. *)
From Coq Require Import Reals ZArith List Lia Lra Permutation String.
From Coquelicot Require Import Complex.
From Verif Require Import Base.PyBase Base.PyFacts Model.Matsubara Model.Bubble Model.BubbleAsympt Spec.AsymptSpec Spec.BubbleSpec Proofs.BubbleAsymptP Proofs.BubbleAsymptMainP.
Import ListNotations.
Local Open Scope R_scope.
Local Open Scope C_scope.

Lemma mesh_points_mesh nx ny nz : mesh_points nx ny nz = mesh nx ny nz.
Proof.
  unfold mesh_points, mesh, range. assert (Hgen : forall (l1 l2 l3 : list Z),
    flat_map (fun x => flat_map (fun y => map (fun z => (x, y, z)) l3) l2) l1 = list_prod (list_prod l1 l2) l3).
  { intros l1 l2 l3. induction l1 as [|x l1 IH]; [reflexivity|]. cbn [flat_map list_prod]. rewrite IH. clear IH.
    assert (Happ : forall (A B : Type) (a b : list A) (c : list B), list_prod (a ++ b) c = list_prod a c ++ list_prod b c).
    { intros A B a b c. induction a as [|t a IH]; [reflexivity|]. cbn. now rewrite IH, app_assoc. }
    rewrite Happ. f_equal. clear Happ. induction l2 as [|y l2 IH]; [reflexivity|]. cbn [flat_map map list_prod]. now rewrite IH. }
  now rewrite Hgen.
Qed.
Lemma mesh_mean_avg nx ny nz f : mesh_mean nx ny nz f = avgR nx ny nz f.
Proof. unfold mesh_mean, avgR. now rewrite mesh_points_mesh. Qed.
Lemma in_arange x a b : In x (arange a b) <-> (a <= x < b)%Z.
Proof. apply In_arange. Qed.
Lemma in_mesh nx ny nz x y z : In (x, y, z) (mesh nx ny nz) <-> (0 <= x < nx /\ 0 <= y < ny /\ 0 <= z < nz)%Z.
Proof. unfold mesh. rewrite !in_prod_iff, !in_arange. tauto. Qed.
Lemma NoDup_map_on {A B} (f : A -> B) l : NoDup l -> (forall x y, In x l -> In y l -> f x = f y -> x = y) -> NoDup (map f l).
Proof.
  induction 1 as [|x l Hx Hl IH]; intros Hf; [constructor|]. cbn. constructor.
  - rewrite in_map_iff. intros [y [Hy1 Hy2]]. apply Hf in Hy1; [|now right|now left]. now subst.
  - apply IH. intros a b Ha Hb'. apply Hf; now right.
Qed.
Lemma NoDup_app2 {A} (l1 l2 : list A) : NoDup l1 -> NoDup l2 -> (forall x, In x l1 -> ~ In x l2) -> NoDup (l1 ++ l2).
Proof.
  induction 1 as [|x l Hx Hl IH]; intros H2 H; [exact H2|]. cbn. constructor.
  - rewrite in_app_iff. intros [Hi|Hi]; [now apply Hx|]. apply (H x); [now left|exact Hi].
  - apply IH; [exact H2|]. intros y Hy. apply H. now right.
Qed.
Lemma NoDup_list_prod {A B} (l : list A) (l' : list B) : NoDup l -> NoDup l' -> NoDup (list_prod l l').
Proof.
  intros H H'. induction H as [|x l Hx Hl IH]; [constructor|]. cbn. apply NoDup_app2; [|exact IH|].
  - apply NoDup_map_on; [exact H'|]. intros a b _ _ [= ->]. reflexivity.
  - intros [a b] Hi. rewrite in_map_iff in Hi. destruct Hi as [y [[= <- <-] _]]. rewrite in_prod_iff. tauto.
Qed.
Lemma NoDup_mesh nx ny nz : NoDup (mesh nx ny nz).
Proof. unfold mesh. repeat apply NoDup_list_prod; apply NoDup_arange. Qed.
Lemma mod_shift_inj n a b q : (0 <= a < n)%Z -> (0 <= b < n)%Z -> ((a + q) mod n = (b + q) mod n)%Z -> a = b.
Proof.
  intros Ha Hb E. assert (H : ((a - b) mod n = 0)%Z).
  { replace (a - b)%Z with ((a + q) - (b + q))%Z by lia. rewrite Zminus_mod, E, Z.sub_diag. apply Z.mod_0_l. lia. }
  assert (Hn : n <> 0%Z) by (clear -Ha; lia). apply (Z.mod_divide _ _ Hn) in H. destruct H as [c Hc]. clear E Hn q.
  destruct (Z.eq_dec c 0) as [->|Hc0]; [lia|]. assert (Hd : (1 <= c \/ c <= -1)%Z) by lia. exfalso. destruct Hd; nia.
Qed.
Lemma mesh_perm nx ny nz q : (0 < nx)%Z -> (0 < ny)%Z -> (0 < nz)%Z -> Permutation (map (fun k => kq nx ny nz k q) (mesh nx ny nz)) (mesh nx ny nz).
Proof.
  intros Hx Hy Hz. destruct q as [[qx qy] qz]. apply NoDup_Permutation.
  - apply NoDup_map_on; [apply NoDup_mesh|]. intros [[x y] z] [[x' y'] z'] H1 H2 E. apply in_mesh in H1, H2. cbn in E. injection E as E1 E2 E3.
    f_equal; [f_equal|]; eapply mod_shift_inj; try eassumption; lia.
  - apply NoDup_mesh.
  - intros [[x y] z]. rewrite in_map_iff. split.
    + intros [[[x' y'] z'] [E H]]. cbn in E. injection E as <- <- <-. apply in_mesh. repeat split; apply Z.mod_pos_bound; lia.
    + intros H. apply in_mesh in H. exists ((x - qx) mod nx, (y - qy) mod ny, (z - qz) mod nz)%Z. split.
      * cbn. rewrite !Zplus_mod_idemp_l. replace (x - qx + qx)%Z with x by lia. replace (y - qy + qy)%Z with y by lia. replace (z - qz + qz)%Z with z by lia.
        rewrite !Z.mod_small by lia. reflexivity.
      * apply in_mesh. repeat split; apply Z.mod_pos_bound; lia.
Qed.
Lemma fold_perm_R l l' : Permutation l l' -> fold_right Rplus 0%R l = fold_right Rplus 0%R l'.
Proof. induction 1; cbn; try lra. Qed.
Lemma fold_perm_C l l' : Permutation l l' -> fold_right Cplus (RtoC 0) l = fold_right Cplus (RtoC 0) l'.
Proof. induction 1; cbn; [reflexivity|now rewrite IHPermutation|ring|congruence]. Qed.
Section Avg.
Variables nx ny nz : Z.
Hypothesis Hx : (0 < nx)%Z.
Hypothesis Hy : (0 < ny)%Z.
Hypothesis Hz : (0 < nz)%Z.
Notation avg := (avgR nx ny nz).
Notation cavg := (avgC nx ny nz).
Notation K := (mesh nx ny nz).
Lemma avgR_shift f q : avg (fun k => f (kq nx ny nz k q)) = avg f.
Proof.
  unfold avgR. f_equal. rewrite <- (map_map (fun k => kq nx ny nz k q) f). apply fold_perm_R. apply Permutation_map. now apply mesh_perm.
Qed.
Lemma avgC_shift f q : cavg (fun k => f (kq nx ny nz k q)) = cavg f.
Proof.
  unfold avgC. f_equal. rewrite <- (map_map (fun k => kq nx ny nz k q) f). apply fold_perm_C. apply Permutation_map. now apply mesh_perm.
Qed.
Lemma foldR_plus {A} (l : list A) f g : fold_right Rplus 0%R (map (fun x => f x + g x)%R l) = (fold_right Rplus 0%R (map f l) + fold_right Rplus 0%R (map g l))%R.
Proof. induction l as [|x l IH]; cbn; [lra|]. rewrite IH. lra. Qed.
Lemma foldR_scal {A} (l : list A) c f : fold_right Rplus 0%R (map (fun x => c * f x)%R l) = (c * fold_right Rplus 0%R (map f l))%R.
Proof. induction l as [|x l IH]; cbn; [lra|]. rewrite IH. lra. Qed.
Lemma foldR_const {A} (l : list A) c : fold_right Rplus 0%R (map (fun _ => c) l) = (c * INR (length l))%R.
Proof. induction l as [|x l IH]; [cbn; lra|]. cbn [map fold_right length]. rewrite IH, S_INR. lra. Qed.
Lemma size_mesh : INR (length K) = IZR (nx * ny * nz).
Proof.
  unfold mesh. rewrite !prod_length. rewrite !INR_IZR_INZ, !Nat2Z.inj_mul.
  assert (H : forall n, (0 < n)%Z -> Z.of_nat (length (arange 0 n)) = n) by (intros n Hn; pose proof (zlen_arange 0 n) as E; unfold zlen in E; rewrite E; lia).
  now rewrite !H.
Qed.
Lemma size_pos : (0 < IZR (nx * ny * nz))%R.
Proof. apply (IZR_lt 0). nia. Qed.
Lemma avgR_plus f g : avg (fun k => f k + g k)%R = (avg f + avg g)%R.
Proof. unfold avgR. rewrite foldR_plus. unfold Rdiv. lra. Qed.
Lemma avgR_scal c f : avg (fun k => c * f k)%R = (c * avg f)%R.
Proof. unfold avgR. rewrite foldR_scal. unfold Rdiv. lra. Qed.
Lemma avgR_const c : avg (fun _ => c) = c.
Proof. unfold avgR. rewrite foldR_const, size_mesh. field. pose proof size_pos. lra. Qed.
Lemma avgR_ext f g : (forall k, f k = g k) -> avg f = avg g.
Proof. intros H. unfold avgR. f_equal. f_equal. now apply map_ext. Qed.
Lemma avgC_plus f g : cavg (fun k => f k + g k) = cavg f + cavg g.
Proof. unfold avgC. rewrite fold_plus. unfold Cdiv. ring. Qed.
Lemma avgC_scal c f : cavg (fun k => c * f k) = c * cavg f.
Proof. unfold avgC. rewrite fold_scal. unfold Cdiv. ring. Qed.
Lemma avgC_minus f g : cavg (fun k => f k - g k) = cavg f - cavg g.
Proof.
  replace (cavg f - cavg g) with (cavg f + - RtoC 1 * cavg g) by ring. rewrite <- avgC_scal, <- avgC_plus. unfold avgC. f_equal. f_equal. apply map_ext. intros k. ring.
Qed.
Lemma avgC_ext f g : (forall k, f k = g k) -> cavg f = cavg g.
Proof. intros H. unfold avgC. f_equal. f_equal. now apply map_ext. Qed.
Lemma avgC_R f : cavg (fun k => RtoC (f k)) = RtoC (avg f).
Proof.
  unfold avgC, avgR. rewrite RtoC_div by (pose proof size_pos; lra). f_equal.
  induction K as [|k l IH]; [reflexivity|]. cbn. rewrite IH. now rewrite RtoC_plus.
Qed.
Lemma avgC_const c : cavg (fun _ => c) = c.
Proof.
  rewrite (avgC_ext _ (fun k => c * RtoC 1)) by (intros; ring). rewrite avgC_scal, avgC_R, avgR_const. ring.
Qed.
Lemma avgR_cst_plus c f : avg (fun k => c + f k)%R = (c + avg f)%R.
Proof. rewrite avgR_plus, avgR_const. reflexivity. Qed.

(** the average of the expanded product *)
Lemma avg_prod4 beta s1 n m (X Y : Z * Z * Z -> R) : let a := / inu beta n in let b := / inu beta m in
  cavg (fun k => prod4 beta (X k) (Y k) s1 n m) =
  a * b - RtoC (avg X) * (a * a * b) - RtoC (avg Y) * (a * b * b)
  + RtoC (avg (fun k => X k * X k)%R - s1) * (a * a * a * b) + RtoC (avg (fun k => Y k * Y k)%R - s1) * (a * b * b * b)
  + RtoC (avg (fun k => X k * Y k)%R) * (a * a * b * b).
Proof.
  intros a b. unfold prod4. fold a. fold b. cbv zeta.
  rewrite !avgC_plus, !avgC_minus, avgC_const.
  assert (Hc : forall f c, cavg (fun k => RtoC (f k) * c) = RtoC (avg f) * c).
  { intros f c. rewrite (avgC_ext _ (fun k => c * RtoC (f k))) by (intros; ring). rewrite avgC_scal, avgC_R. ring. }
  rewrite !Hc.
  assert (Hm : forall f, avg (fun k => f k - s1)%R = (avg f - s1)%R).
  { intros f. rewrite (avgR_ext _ (fun k => - s1 + f k)%R) by (intros; lra). rewrite avgR_cst_plus. lra. }
  now rewrite !Hm.
Qed.
Lemma avg_x mu s0 e : avg e = 0%R -> avg (fun k => mu - e k - s0)%R = (mu - s0)%R.
Proof.
  intros He. rewrite (avgR_ext _ (fun k => (mu - s0) + (-1) * e k)%R) by (intros; lra). rewrite avgR_cst_plus, avgR_scal, He. lra.
Qed.
Lemma avg_xx mu s0 e e' : avg e = 0%R -> avg e' = 0%R -> avg (fun k => (mu - e k - s0) * (mu - e' k - s0))%R = ((mu - s0) ^ 2 + avg (fun k => e k * e' k))%R.
Proof.
  intros He He'. rewrite (avgR_ext _ (fun k => (mu - s0) ^ 2 + (- (mu - s0) * e k + (- (mu - s0) * e' k + e k * e' k)))%R) by (intros; ring).
  rewrite avgR_cst_plus, !avgR_plus, !avgR_scal, He, He'. ring.
Qed.
End Avg.

(** * The prefactors are those of the averaged products *)
Definition xk (g : bgen) (k : Z * Z * Z) : R := (bg_mu g - bg_ek g k - bg_smom0 g)%R.
Section Pre.
Variable g : bgen.
Hypothesis Hx : (0 < bg_nx g)%Z.
Hypothesis Hy : (0 < bg_ny g)%Z.
Hypothesis Hz : (0 < bg_nz g)%Z.
Notation nx := (bg_nx g).
Notation ny := (bg_ny g).
Notation nz := (bg_nz g).
Notation X := (xk g).
Hypothesis Hmean : avgR nx ny nz (bg_ek g) = 0%R.
Lemma shift_kq (e : Z * Z * Z -> R) q k : shift_mat nx ny nz e (neg_ind q) k = e (kq nx ny nz k q).
Proof. destruct k as [[x y] z], q as [[qx qy] qz]. cbn. now rewrite !Z.sub_opp_r. Qed.
Lemma ek_ekpq_avg q : ek_ekpq g q = avgR nx ny nz (fun k => bg_ek g k * bg_ek g (kq nx ny nz k q))%R.
Proof. unfold ek_ekpq. rewrite mesh_mean_avg. apply avgR_ext. intros k. now rewrite shift_kq. Qed.
Lemma ek_mom2_avg : ek_mom2 g = avgR nx ny nz (fun k => bg_ek g k * bg_ek g k)%R.
Proof. unfold ek_mom2. rewrite mesh_mean_avg. apply avgR_ext. intros k. ring. Qed.
Lemma HX : avgR nx ny nz X = (bg_mu g - bg_smom0 g)%R.
Proof. exact (avg_x nx ny nz Hx Hy Hz _ _ _ Hmean). Qed.
Lemma HXX : avgR nx ny nz (fun k => X k * X k)%R = ((bg_mu g - bg_smom0 g) ^ 2 + ek_mom2 g)%R.
Proof. rewrite ek_mom2_avg. exact (avg_xx nx ny nz Hx Hy Hz _ _ _ _ Hmean Hmean). Qed.
Lemma HXq q : avgR nx ny nz (fun k => X k * X (kq nx ny nz k q))%R = ((bg_mu g - bg_smom0 g) ^ 2 + ek_ekpq g q)%R.
Proof.
  rewrite ek_ekpq_avg. apply (avg_xx nx ny nz Hx Hy Hz _ _ (bg_ek g) (fun k => bg_ek g (kq nx ny nz k q)) Hmean).
  rewrite (avgR_shift nx ny nz Hx Hy Hz (bg_ek g)). exact Hmean.
Qed.
Lemma term_q q n m : avgC nx ny nz (fun k => prod4 (bg_beta g) (X k) (X (kq nx ny nz k q)) (bg_smom1 g) n m) = term (bg_beta g) (get_asympt_prefactors_q g q) n m.
Proof.
  rewrite (avg_prod4 nx ny nz Hx Hy Hz (bg_beta g) (bg_smom1 g) n m X (fun k => X (kq nx ny nz k q))).
  rewrite (avgR_shift nx ny nz Hx Hy Hz X q). rewrite (avgR_shift nx ny nz Hx Hy Hz (fun k => X k * X k)%R q).
  rewrite HX, HXX, HXq. unfold term, get_asympt_prefactors_q. cbv zeta. ring.
Qed.
Lemma term_loc n m : avgC nx ny nz (fun k => avgC nx ny nz (fun k' => prod4 (bg_beta g) (X k) (X k') (bg_smom1 g) n m)) = term (bg_beta g) (get_asympt_prefactors g) n m.
Proof.
  set (mm := (bg_mu g - bg_smom0 g)%R).
  rewrite (avgC_ext nx ny nz _ (fun k => prod4 (bg_beta g) (X k) mm (bg_smom1 g) n m
     + RtoC (ek_mom2 g) * (/ inu (bg_beta g) n * / inu (bg_beta g) m * / inu (bg_beta g) m * / inu (bg_beta g) m))).
  - rewrite avgC_plus, (avgC_const nx ny nz Hx Hy Hz).
    rewrite (avg_prod4 nx ny nz Hx Hy Hz (bg_beta g) (bg_smom1 g) n m X (fun _ => mm)).
    rewrite HX, HXX, !(avgR_const nx ny nz Hx Hy Hz).
    rewrite (avgR_ext nx ny nz (fun k => X k * mm)%R (fun k => mm * X k)%R) by (intros; ring).
    rewrite avgR_scal, HX. fold mm.
    unfold term, get_asympt_prefactors. cbv zeta. assert (E1 : ek_mom1 g = 0%R) by (unfold ek_mom1; rewrite mesh_mean_avg; exact Hmean). rewrite E1. fold mm.
    replace (mm ^ 2)%R with (mm * mm)%R by ring. replace (mm * mm + 0 ^ 2)%R with (mm * mm)%R by ring.
    rewrite !RtoC_minus, !RtoC_plus, !RtoC_mult. ring.
  - intros k. rewrite (avg_prod4 nx ny nz Hx Hy Hz (bg_beta g) (bg_smom1 g) n m (fun _ => X k) X).
    rewrite HX, HXX, !(avgR_const nx ny nz Hx Hy Hz), avgR_scal, HX. fold mm.
    unfold prod4. cbv zeta. replace (mm ^ 2)%R with (mm * mm)%R by ring. rewrite !RtoC_minus, !RtoC_plus, !RtoC_mult. ring.
Qed.
End Pre.
