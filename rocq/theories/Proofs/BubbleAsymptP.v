(** Limits of the high-frequency sums. *)
From Coq Require Import Reals ZArith List Lia Lra String.
From Coquelicot Require Import Complex.
From Verif Require Import Base.PyBase Base.PyFacts Spec.AsymptSpec Proofs.OddSumsP.
Import ListNotations.
Local Open Scope R_scope.
Local Open Scope C_scope.

Local Arguments Cmod (_)%C_scope.
(** * convergence *)
Lemma Ccv_ext u v l : (forall n, u n = v n) -> Ccv u l -> Ccv v l.
Proof. intros H Hu eps He. destruct (Hu eps He) as [N HN]. exists N. intros n Hn. rewrite <- H. auto. Qed.
Lemma Ccv_ext_from n0 u v l : (forall n, (n0 <= n)%nat -> u n = v n) -> Ccv u l -> Ccv v l.
Proof. intros H Hu eps He. destruct (Hu eps He) as [N HN]. exists (Nat.max n0 N). intros n Hn. rewrite <- H by lia. apply HN. lia. Qed.
Lemma Ccv_const l : Ccv (fun _ => l) l.
Proof. intros eps He. exists 0%nat. intros n _. replace (l - l) with (RtoC 0) by ring. rewrite Cmod_0. exact He. Qed.
Lemma Ccv_plus u v l m : Ccv u l -> Ccv v m -> Ccv (fun n => u n + v n) (l + m).
Proof.
  intros Hu Hv eps He. destruct (Hu (eps / 2)%R ltac:(lra)) as [N HN]. destruct (Hv (eps / 2)%R ltac:(lra)) as [M HM].
  exists (Nat.max N M). intros n Hn. replace (u n + v n - (l + m)) with ((u n - l) + (v n - m)) by ring.
  eapply Rle_lt_trans; [apply Cmod_triangle|]. specialize (HN n ltac:(lia)). specialize (HM n ltac:(lia)). lra.
Qed.
Lemma Ccv_scal c u l : Ccv u l -> Ccv (fun n => c * u n) (c * l).
Proof.
  intros Hu eps He. destruct (Hu (eps / (Cmod c + 1))%R) as [N HN].
  { apply Rdiv_lt_0_compat; [lra|]. pose proof (Cmod_ge_0 c). lra. }
  exists N. intros n Hn. replace (c * u n - c * l) with (c * (u n - l)) by ring. rewrite Cmod_mult.
  specialize (HN n Hn). pose proof (Cmod_ge_0 c). pose proof (Cmod_ge_0 (u n - l)).
  apply Rle_lt_trans with ((Cmod c + 1) * Cmod (u n - l))%R; [nra|].
  apply Rmult_lt_reg_r with (/ (Cmod c + 1))%R; [apply Rinv_0_lt_compat; lra|].
  replace ((Cmod c + 1) * Cmod (u n - l) * / (Cmod c + 1))%R with (Cmod (u n - l)) by (field; lra). exact HN.
Qed.
Lemma Ccv_minus u v l m : Ccv u l -> Ccv v m -> Ccv (fun n => u n - v n) (l - m).
Proof.
  intros Hu Hv. apply Ccv_ext with (fun n => u n + (- RtoC 1) * v n); [intros; ring|].
  replace (l - m) with (l + (- RtoC 1) * m) by ring. apply Ccv_plus; [exact Hu|]. now apply Ccv_scal.
Qed.
Lemma Ccv_opp u l : Ccv u l -> Ccv (fun n => - u n) (- l).
Proof. intros H. apply Ccv_ext with (fun n => (- RtoC 1) * u n); [intros; ring|]. replace (- l) with ((- RtoC 1) * l) by ring. now apply Ccv_scal. Qed.
Lemma Ccv_mult_0 u v : Ccv u (RtoC 0) -> Ccv v (RtoC 0) -> Ccv (fun n => u n * v n) (RtoC 0).
Proof.
  intros Hu Hv eps He. destruct (Hu (Rmin 1 eps)) as [N HN]; [apply Rmin_pos; lra|]. destruct (Hv 1%R ltac:(lra)) as [M HM].
  exists (Nat.max N M). intros n Hn. specialize (HN n ltac:(lia)). specialize (HM n ltac:(lia)).
  replace (u n * v n - RtoC 0) with ((u n - RtoC 0) * (v n - RtoC 0)) by ring. rewrite Cmod_mult.
  pose proof (Cmod_ge_0 (u n - RtoC 0)). pose proof (Cmod_ge_0 (v n - RtoC 0)). pose proof (Rmin_l 1 eps). pose proof (Rmin_r 1 eps). nra.
Qed.
Lemma Ccv_R (u : nat -> R) l : Un_cv u l -> Ccv (fun n => RtoC (u n)) (RtoC l).
Proof.
  intros H eps He. destruct (H eps He) as [N HN]. exists N. intros n Hn. rewrite <- RtoC_minus, Cmod_R. apply HN. lia.
Qed.
Lemma Ccv_unique u l m : Ccv u l -> Ccv u m -> l = m.
Proof.
  intros Hl Hm. assert (E : l - m = RtoC 0).
  { apply Cmod_eq_0. apply Rle_antisym; [|apply Cmod_ge_0]. apply le_epsilon. intros eps He.
    destruct (Hl (eps / 2)%R ltac:(lra)) as [N HN]. destruct (Hm (eps / 2)%R ltac:(lra)) as [M HM].
    set (n := Nat.max N M). specialize (HN n ltac:(lia)). specialize (HM n ltac:(lia)).
    replace (l - m) with (- (u n - l) + (u n - m)) by ring. eapply Rle_trans; [apply Cmod_triangle|]. rewrite Cmod_opp. lra. }
  replace l with ((l - m) + m) by ring. rewrite E. ring.
Qed.

(** * sums *)
Lemma zsumC_empty a b f : (b <= a)%Z -> zsumC a b f = RtoC 0.
Proof. intros H. unfold zsumC. now rewrite arange_empty. Qed.
Lemma fold_app l1 l2 : fold_right Cplus (RtoC 0) (l1 ++ l2) = fold_right Cplus (RtoC 0) l1 + fold_right Cplus (RtoC 0) l2.
Proof. induction l1 as [|x l1 IH]; simpl; [ring|]. rewrite IH. ring. Qed.
Lemma zsumC_split a b c f : (a <= b)%Z -> (b <= c)%Z -> zsumC a c f = zsumC a b f + zsumC b c f.
Proof. intros H1 H2. unfold zsumC. rewrite <- (@arange_app a b c H1 H2), map_app. apply fold_app. Qed.
Lemma zsumC_one a f : zsumC a (a + 1) f = f a.
Proof. unfold zsumC. rewrite arange_cons by lia. rewrite arange_empty by lia. simpl. ring. Qed.
Lemma zsumC_ext a b f g : (forall n, (a <= n < b)%Z -> f n = g n) -> zsumC a b f = zsumC a b g.
Proof. intros H. unfold zsumC. f_equal. apply map_ext_in. intros n Hn. apply H, In_arange, Hn. Qed.
Lemma fold_plus {A} (l : list A) f g : fold_right Cplus (RtoC 0) (map (fun x => f x + g x) l) = fold_right Cplus (RtoC 0) (map f l) + fold_right Cplus (RtoC 0) (map g l).
Proof. induction l as [|x l IH]; simpl; [ring|]. rewrite IH. ring. Qed.
Lemma fold_scal {A} (l : list A) c f : fold_right Cplus (RtoC 0) (map (fun x => c * f x) l) = c * fold_right Cplus (RtoC 0) (map f l).
Proof. induction l as [|x l IH]; simpl; [ring|]. rewrite IH. ring. Qed.
Lemma zsumC_plus a b f g : zsumC a b (fun n => f n + g n) = zsumC a b f + zsumC a b g.
Proof. apply fold_plus. Qed.
Lemma zsumC_scal a b c f : zsumC a b (fun n => c * f n) = c * zsumC a b f.
Proof. apply fold_scal. Qed.
Lemma zsumC_minus a b f g : zsumC a b (fun n => f n - g n) = zsumC a b f - zsumC a b g.
Proof.
  rewrite (zsumC_ext a b _ (fun n => f n + (- RtoC 1) * g n)) by (intros; ring). rewrite zsumC_plus, zsumC_scal. ring.
Qed.
Lemma zsumC_shift a b s f : zsumC a b (fun n => f (n + s)%Z) = zsumC (a + s) (b + s) f.
Proof.
  unfold zsumC. f_equal. rewrite <- (map_map (fun n => (n + s)%Z) f). f_equal.
  rewrite (Z.add_comm a s), (Z.add_comm b s), <- arange_map_add. apply map_ext. intros. lia.
Qed.

(** * inverse frequencies *)
Section Inv.
Variable beta : R.
Hypothesis Hb : (beta <> 0)%R.
Notation a := (fun n => / inu beta n).
Lemma nu_neq0 n : (PI / beta * IZR (2 * n + 1) <> 0)%R.
Proof.
  pose proof PI_RGT_0. apply Rmult_integral_contrapositive_currified.
  - unfold Rdiv. apply Rmult_integral_contrapositive_currified; [lra|]. now apply Rinv_neq_0_compat.
  - apply not_0_IZR. lia.
Qed.
Lemma Ci_neq0 : Ci <> RtoC 0.
Proof. intros E. injection E. lra. Qed.
Lemma inu_neq0 n : inu beta n <> RtoC 0.
Proof. apply Cmult_neq_0; [apply Ci_neq0|]. intros E. apply RtoC_inj in E. now apply nu_neq0 in E. Qed.
Lemma inu_opp n : inu beta (- n - 1) = - inu beta n.
Proof. unfold inu. replace (2 * (- n - 1) + 1)%Z with (- (2 * n + 1))%Z by lia. rewrite opp_IZR. rewrite Ropp_mult_distr_r_reverse, RtoC_opp. ring. Qed.
Lemma Cmod_Ci : Cmod Ci = 1%R.
Proof. unfold Cmod, Ci. simpl. replace (0 * (0 * 1) + 1 * (1 * 1))%R with 1%R by ring. apply sqrt_1. Qed.
Lemma Cmod_inu n : Cmod (inu beta n) = (PI / Rabs beta * Rabs (IZR (2 * n + 1)))%R.
Proof.
  unfold inu. rewrite Cmod_mult, Cmod_Ci, Cmod_R, Rmult_1_l, Rabs_mult. unfold Rdiv. rewrite Rabs_mult.
  rewrite Rabs_inv. rewrite (Rabs_pos_eq PI); [reflexivity|]. pose proof PI_RGT_0. lra.
Qed.
Lemma small_inv s sg (Hsg : sg = 1%Z \/ sg = (-1)%Z) : Ccv (fun N => / inu beta (sg * Z.of_nat N + s)) (RtoC 0).
Proof.
  intros eps He. pose proof PI_RGT_0. assert (Hab : (0 < Rabs beta)%R) by now apply Rabs_pos_lt.
  set (B := (Rabs beta / (PI * eps))%R). destruct (archimed B) as [HB _].
  exists (Z.to_nat (up B) + Z.abs_nat s + 1)%nat. intros n Hn.
  replace (/ inu beta (sg * Z.of_nat n + s) - RtoC 0) with (/ inu beta (sg * Z.of_nat n + s)) by ring.
  rewrite Cmod_inv by apply inu_neq0. rewrite Cmod_inu.
  assert (Hm : (B < Rabs (IZR (2 * (sg * Z.of_nat n + s) + 1)))%R).
  { rewrite <- abs_IZR. apply Rlt_le_trans with (IZR (up B)); [lra|]. apply IZR_le. destruct Hsg; subst sg; lia. }
  assert (HB0 : (0 < B)%R) by (unfold B; apply Rdiv_lt_0_compat; [lra|apply Rmult_lt_0_compat; lra]).
  apply Rlt_le_trans with (/ (PI / Rabs beta * B))%R.
  - apply Rinv_lt_contravar; [|apply Rmult_lt_compat_l; [apply Rdiv_lt_0_compat; lra|exact Hm]].
    apply Rmult_lt_0_compat; apply Rmult_lt_0_compat; try lra; apply Rdiv_lt_0_compat; lra.
  - right. unfold B. field. repeat split; lra.
Qed.

(** powers summed over a window *)
Fixpoint Cpow (z : C) (n : nat) : C := match n with O => RtoC 1 | S n => z * Cpow z n end.
Definition ipow (p : nat) (n : Z) : C := Cpow (/ inu beta n) p.
Lemma small_pow p s sg : sg = 1%Z \/ sg = (-1)%Z -> Ccv (fun N => ipow (S p) (sg * Z.of_nat N + s)) (RtoC 0).
Proof.
  intros Hsg. induction p as [|p IH].
  - eapply Ccv_ext; [|apply (small_inv s sg Hsg)]. intros n. unfold ipow. simpl. ring.
  - eapply Ccv_ext; [|apply (Ccv_mult_0 _ _ (small_inv s sg Hsg) IH)]. intros n. unfold ipow. simpl. ring.
Qed.
Definition W (p : nat) (s : Z) (N : nat) : C := zsumC (- Z.of_nat N) (Z.of_nat N) (fun n => ipow p (n + s)).
Lemma W_step p s N : W p (s + 1) N - W p s N = ipow p (1 * Z.of_nat N + s) - ipow p (-1 * Z.of_nat N + s).
Proof.
  unfold W. rewrite !(zsumC_shift _ _ _ (ipow p)).
  assert (E : zsumC (- Z.of_nat N + s) (Z.of_nat N + s + 1) (ipow p) = zsumC (- Z.of_nat N + s) (Z.of_nat N + s) (ipow p) + ipow p (Z.of_nat N + s)).
  { rewrite (zsumC_split _ (Z.of_nat N + s)) by lia. now rewrite zsumC_one. }
  assert (E2 : zsumC (- Z.of_nat N + s) (Z.of_nat N + s + 1) (ipow p) = ipow p (- Z.of_nat N + s) + zsumC (- Z.of_nat N + s + 1) (Z.of_nat N + s + 1) (ipow p)).
  { rewrite (zsumC_split _ (- Z.of_nat N + s + 1)) by lia. now rewrite zsumC_one. }
  rewrite !Z.add_assoc. rewrite Z.mul_1_l. replace (-1 * Z.of_nat N)%Z with (- Z.of_nat N)%Z by lia. rewrite E in E2.
  set (X := zsumC (- Z.of_nat N + s + 1) (Z.of_nat N + s + 1) (ipow p)) in *. set (Y := zsumC (- Z.of_nat N + s) (Z.of_nat N + s) (ipow p)) in *.
  replace X with ((Y + ipow p (Z.of_nat N + s)) - ipow p (- Z.of_nat N + s)) by (rewrite E2; ring). ring.
Qed.
Lemma W_shift p s l : Ccv (W (S p) 0) l -> Ccv (W (S p) s) l.
Proof.
  intros H0.
  assert (Hstep : forall t, Ccv (fun N => W (S p) (t + 1) N - W (S p) t N) (RtoC 0)).
  { intros t. eapply Ccv_ext; [intros n; symmetry; apply W_step|]. replace (RtoC 0) with (RtoC 0 - RtoC 0) by ring.
    apply Ccv_minus; apply small_pow; auto. }
  assert (Hup : forall k : nat, Ccv (W (S p) (Z.of_nat k)) l).
  { induction k as [|k IH]; [exact H0|]. rewrite Nat2Z.inj_succ, <- Z.add_1_r.
    eapply Ccv_ext; [|replace l with (l + RtoC 0) by ring; apply (Ccv_plus _ _ _ _ IH (Hstep (Z.of_nat k)))]. intros n. simpl. ring. }
  assert (Hdn : forall k : nat, Ccv (W (S p) (- Z.of_nat k)) l).
  { induction k as [|k IH]; [exact H0|].
    eapply Ccv_ext; [|replace l with (l - RtoC 0) by ring; apply (Ccv_minus _ _ _ _ IH (Hstep (- Z.of_nat (S k))%Z))]. intros n. cbv beta.
    replace (- Z.of_nat (S k) + 1)%Z with (- Z.of_nat k)%Z by lia. ring. }
  destruct (Z_le_dec 0 s) as [Hs|Hs]; [specialize (Hup (Z.to_nat s))|specialize (Hdn (Z.to_nat (- s)))].
  - now rewrite Z2Nat.id in Hup.
  - rewrite Z2Nat.id in Hdn by lia. now rewrite Z.opp_involutive in Hdn.
Qed.
Lemma W0_succ p N : W p 0 (S N) = W p 0 N + (ipow p (Z.of_nat N) + ipow p (- Z.of_nat N - 1)).
Proof.
  unfold W. rewrite !(zsumC_ext _ _ (fun n => ipow p (n + 0)) (ipow p)) by (intros; now rewrite Z.add_0_r).
  rewrite Nat2Z.inj_succ. rewrite (zsumC_split (- Z.succ (Z.of_nat N)) (- Z.of_nat N)) by lia.
  rewrite (zsumC_split (- Z.of_nat N) (Z.of_nat N)) by lia.
  replace (- Z.succ (Z.of_nat N))%Z with (- Z.of_nat N - 1)%Z by lia.
  replace (zsumC (- Z.of_nat N - 1) (- Z.of_nat N) (ipow p)) with (ipow p (- Z.of_nat N - 1)).
  2:{ replace (- Z.of_nat N)%Z with ((- Z.of_nat N - 1) + 1)%Z at 3 by lia. now rewrite zsumC_one. }
  replace (Z.succ (Z.of_nat N)) with (Z.of_nat N + 1)%Z by lia. rewrite zsumC_one. ring.
Qed.
Lemma ipow_mirror p n : ipow p (- n - 1) = Cpow (- RtoC 1) p * ipow p n.
Proof.
  unfold ipow. rewrite inu_opp. assert (E : / - inu beta n = (- RtoC 1) * / inu beta n).
  { field. split; [apply inu_neq0|]. intros E. apply (inu_neq0 n). replace (inu beta n) with (- - inu beta n) by ring. rewrite E. ring. }
  rewrite E.
  induction p as [|p IH]; simpl; [ring|]. rewrite IH. ring.
Qed.
Lemma W_odd p N : Cpow (- RtoC 1) p = - RtoC 1 -> W p 0 N = RtoC 0.
Proof.
  intros H. induction N as [|N IH]; [unfold W; now rewrite zsumC_empty by lia|]. rewrite W0_succ, IH, ipow_mirror, H. ring.
Qed.
Lemma W_even p N c : Cpow (- RtoC 1) p = RtoC 1 -> (forall n : nat, ipow p (Z.of_nat n) = RtoC (c * / INR (2 * n + 1) ^ p)%R) ->
  W p 0 N = RtoC (2 * c * odd_sum p N)%R.
Proof.
  intros H Hc. induction N as [|N IH].
  - unfold W. rewrite zsumC_empty by lia. unfold odd_sum. simpl. f_equal. ring.
  - rewrite W0_succ, IH, ipow_mirror, H, Hc.
    replace (odd_sum p (S N)) with (odd_sum p N + / INR (2 * N + 1) ^ p)%R by reflexivity.
    rewrite Cmult_1_l, <- !RtoC_plus. f_equal. ring.
Qed.
Lemma inv_inu n : / inu beta n = - Ci * RtoC (beta / PI * / IZR (2 * n + 1)).
Proof.
  pose proof PI_RGT_0. assert (IZR (2 * n + 1) <> 0)%R by (apply not_0_IZR; lia).
  assert (E : inu beta n * (- Ci * RtoC (beta / PI * / IZR (2 * n + 1))) = RtoC 1).
  { unfold inu. replace (Ci * RtoC (PI / beta * IZR (2 * n + 1)) * (- Ci * RtoC (beta / PI * / IZR (2 * n + 1))))
      with (- (Ci * Ci) * RtoC ((PI / beta * IZR (2 * n + 1)) * (beta / PI * / IZR (2 * n + 1)))) by (rewrite RtoC_mult; ring).
    replace ((PI / beta * IZR (2 * n + 1)) * (beta / PI * / IZR (2 * n + 1)))%R with 1%R by (field; repeat split; lra).
    unfold Ci, RtoC, Cmult, Copp; simpl; f_equal; ring. }
  replace (- Ci * RtoC (beta / PI * / IZR (2 * n + 1))) with (/ inu beta n * (inu beta n * (- Ci * RtoC (beta / PI * / IZR (2 * n + 1))))) by (field; apply inu_neq0).
  rewrite E. ring.
Qed.
Lemma IZR_odd (n : nat) : IZR (2 * Z.of_nat n + 1) = INR (2 * n + 1).
Proof. rewrite INR_IZR_INZ. f_equal. lia. Qed.
Lemma Ci2 : Ci * Ci = - RtoC 1.
Proof. unfold Ci, RtoC, Cmult, Copp; simpl; f_equal; ring. Qed.
Lemma ipow2 (n : nat) : ipow 2 (Z.of_nat n) = RtoC (- (beta / PI) ^ 2 * / INR (2 * n + 1) ^ 2)%R.
Proof.
  assert (E : forall y : R, Cpow (- Ci * RtoC y) 2 = RtoC (- (y * y))).
  { intros y. transitivity ((Ci * Ci) * (RtoC y * RtoC y)); [simpl; ring|]. rewrite Ci2, RtoC_opp, RtoC_mult. ring. }
  unfold ipow. rewrite inv_inu, IZR_odd, E.
  f_equal. pose proof PI_RGT_0. field. split; [apply not_0_INR; lia|lra].
Qed.
Lemma ipow4 (n : nat) : ipow 4 (Z.of_nat n) = RtoC ((beta / PI) ^ 4 * / INR (2 * n + 1) ^ 4)%R.
Proof.
  replace (ipow 4 (Z.of_nat n)) with (ipow 2 (Z.of_nat n) * ipow 2 (Z.of_nat n)) by (unfold ipow; simpl; ring).
  rewrite ipow2, <- RtoC_mult. f_equal. pose proof PI_RGT_0. field. split; [apply not_0_INR; lia|lra].
Qed.
Lemma pow_m1_even : Cpow (- RtoC 1) 2 = RtoC 1 /\ Cpow (- RtoC 1) 4 = RtoC 1 /\ Cpow (- RtoC 1) 1 = - RtoC 1 /\ Cpow (- RtoC 1) 3 = - RtoC 1.
Proof. simpl. repeat split; ring. Qed.
Lemma W1_cv s : Ccv (W 1 s) (RtoC 0).
Proof. apply W_shift. eapply Ccv_ext; [|apply Ccv_const]. intros n. symmetry. apply W_odd, pow_m1_even. Qed.
Lemma W3_cv s : Ccv (W 3 s) (RtoC 0).
Proof. apply W_shift. eapply Ccv_ext; [|apply Ccv_const]. intros n. symmetry. apply W_odd, pow_m1_even. Qed.
Lemma W2_cv s : Ccv (W 2 s) (RtoC (- beta ^ 2 / 4)).
Proof.
  apply W_shift. eapply Ccv_ext; [intros n; symmetry; apply (W_even 2 n _ (proj1 pow_m1_even) ipow2)|].
  replace (- beta ^ 2 / 4)%R with (2 * - (beta / PI) ^ 2 * (PI ^ 2 / 8))%R by (pose proof PI_RGT_0; field; lra).
  rewrite RtoC_mult. eapply Ccv_ext; [intros n; symmetry; apply RtoC_mult|]. apply Ccv_scal, Ccv_R, odd_sum2_cv.
Qed.
Lemma W4_cv s : Ccv (W 4 s) (RtoC (beta ^ 4 / 48)).
Proof.
  apply W_shift. eapply Ccv_ext; [intros n; symmetry; apply (W_even 4 n _ (proj1 (proj2 pow_m1_even)) ipow4)|].
  replace (beta ^ 4 / 48)%R with (2 * (beta / PI) ^ 4 * (PI ^ 4 / 96))%R by (pose proof PI_RGT_0; field; lra).
  rewrite RtoC_mult. eapply Ccv_ext; [intros n; symmetry; apply RtoC_mult|]. apply Ccv_scal, Ccv_R, odd_sum4_cv.
Qed.
End Inv.
