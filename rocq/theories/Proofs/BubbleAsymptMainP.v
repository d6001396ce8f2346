(** The high-frequency corrections of the bubbles. *)
From Coq Require Import Reals ZArith List Lia Lra String.
From Coquelicot Require Import Complex.
From Verif Require Import Base.PyBase Base.PyFacts Model.Matsubara Model.Bubble Model.BubbleAsympt Spec.AsymptSpec Spec.BubbleSpec Proofs.OddSumsP Proofs.BubbleAsymptP Proofs.BubbleP.
Import ListNotations.
Local Open Scope R_scope.
Local Open Scope C_scope.

(** the summand with three prefactors *)
Definition term (beta : R) (facs : R * R * R) (n m : Z) : C :=
  let a := / inu beta n in let b := / inu beta m in
  match facs with (f1, f2, f3) =>
    a * b - (a * a * b + a * (b * b)) * RtoC f1 + (a * (a * a) * b + a * (b * (b * b))) * RtoC f2 + (a * a * (b * b)) * RtoC f3 end.

Section Lim.
Variable beta : R.
Hypothesis Hb : (beta <> 0)%R.
Definition dfreq (d : Z) : C := Ci * RtoC (2 * PI / beta * IZR d).
Lemma inu_diff n m : inu beta m - inu beta n = dfreq (m - n).
Proof.
  unfold inu, dfreq. replace (2 * PI / beta * IZR (m - n))%R with (PI / beta * IZR (2 * m + 1) - PI / beta * IZR (2 * n + 1))%R.
  - rewrite RtoC_minus. ring.
  - rewrite minus_IZR, !plus_IZR, !mult_IZR. field. exact Hb.
Qed.
Lemma dfreq_neq0 d : d <> 0%Z -> dfreq d <> RtoC 0.
Proof.
  intros Hd. apply Cmult_neq_0; [apply Ci_neq0|]. intros E. apply RtoC_inj in E. pose proof PI_RGT_0.
  apply Rmult_integral in E as [E|E]; [|now apply eq_IZR in E].
  unfold Rdiv in E. apply Rmult_integral in E as [E|E]; [lra|]. now apply Rinv_neq_0_compat in Hb.
Qed.
(** partial fractions *)
Lemma term_frac f1 f2 f3 n m : n <> m -> let D := dfreq (m - n) in
  term beta (f1, f2, f3) n m =
    (/ D - (RtoC 1 + RtoC 1) * RtoC (f3 - f2) / (D * D * D)) * (ipow beta 1 n - ipow beta 1 m) - RtoC f1 / D * (ipow beta 2 n - ipow beta 2 m)
    + RtoC f2 / D * (ipow beta 3 n - ipow beta 3 m) + RtoC (f3 - f2) / (D * D) * (ipow beta 2 n + ipow beta 2 m).
Proof.
  intros Hnm D. assert (HD : D <> RtoC 0) by (apply dfreq_neq0; lia). pose proof (inu_neq0 beta Hb n) as Hn. pose proof (inu_neq0 beta Hb m) as Hm.
  assert (E : inu beta m = inu beta n + D) by (unfold D; rewrite <- inu_diff; ring).
  unfold term, ipow, Cpow. rewrite E in Hm |- *. rewrite RtoC_minus. set (x := inu beta n) in *. field. repeat split; assumption.
Qed.
Lemma term_same f1 f2 f3 n : term beta (f1, f2, f3) n n = ipow beta 2 n - RtoC (2 * f1) * ipow beta 3 n + RtoC (2 * f2 + f3) * ipow beta 4 n.
Proof. unfold term, ipow, Cpow. replace (2 * f1)%R with (f1 + f1)%R by ring. replace (2 * f2 + f3)%R with (f2 + f2 + f3)%R by ring. rewrite !RtoC_plus. ring. Qed.
Definition tsum (facs : R * R * R) (s1 s2 : Z) (N : nat) : C := zsumC (- Z.of_nat N) (Z.of_nat N) (fun n => term beta facs (n + s1) (n + s2)).
Lemma tsum_diff_cv f1 f2 f3 s1 s2 : s1 <> s2 ->
  Ccv (tsum (f1, f2, f3) s1 s2) (RtoC (f3 - f2) / (dfreq (s2 - s1) * dfreq (s2 - s1)) * RtoC (- beta ^ 2 / 2)).
Proof.
  intros Hs. set (D := dfreq (s2 - s1)).
  set (c1 := / D - (RtoC 1 + RtoC 1) * RtoC (f3 - f2) / (D * D * D)). set (c2 := RtoC f1 / D). set (c3 := RtoC f2 / D). set (c4 := RtoC (f3 - f2) / (D * D)).
  apply Ccv_ext with (fun N => c1 * (W beta 1 s1 N - W beta 1 s2 N) - c2 * (W beta 2 s1 N - W beta 2 s2 N) + c3 * (W beta 3 s1 N - W beta 3 s2 N) + c4 * (W beta 2 s1 N + W beta 2 s2 N)).
  - intros N. unfold tsum, W.
    rewrite (zsumC_ext _ _ (fun n => term beta (f1, f2, f3) (n + s1) (n + s2))
      (fun n => c1 * (ipow beta 1 (n + s1) - ipow beta 1 (n + s2)) - c2 * (ipow beta 2 (n + s1) - ipow beta 2 (n + s2)) + c3 * (ipow beta 3 (n + s1) - ipow beta 3 (n + s2)) + c4 * (ipow beta 2 (n + s1) + ipow beta 2 (n + s2)))).
    + rewrite !zsumC_plus, zsumC_minus, !zsumC_scal, !zsumC_minus, zsumC_plus. reflexivity.
    + intros n _. rewrite term_frac by lia. replace (n + s2 - (n + s1))%Z with (s2 - s1)%Z by lia. reflexivity.
  - replace (c4 * RtoC (- beta ^ 2 / 2)) with
      (c1 * (RtoC 0 - RtoC 0) - c2 * (RtoC (- beta ^ 2 / 4) - RtoC (- beta ^ 2 / 4)) + c3 * (RtoC 0 - RtoC 0) + c4 * (RtoC (- beta ^ 2 / 4) + RtoC (- beta ^ 2 / 4))).
    + pose proof (Ccv_scal c1 _ _ (Ccv_minus _ _ _ _ (W1_cv beta Hb s1) (W1_cv beta Hb s2))) as P1.
      pose proof (Ccv_scal c2 _ _ (Ccv_minus _ _ _ _ (W2_cv beta Hb s1) (W2_cv beta Hb s2))) as P2.
      pose proof (Ccv_scal c3 _ _ (Ccv_minus _ _ _ _ (W3_cv beta Hb s1) (W3_cv beta Hb s2))) as P3.
      pose proof (Ccv_scal c4 _ _ (Ccv_plus _ _ _ _ (W2_cv beta Hb s1) (W2_cv beta Hb s2))) as P4.
      exact (Ccv_plus _ _ _ _ (Ccv_plus _ _ _ _ (Ccv_minus _ _ _ _ P1 P2) P3) P4).
    + replace (- beta ^ 2 / 2)%R with ((- beta ^ 2 / 4) + (- beta ^ 2 / 4))%R by field. rewrite !RtoC_plus. ring.
Qed.
Lemma tsum_same_cv f1 f2 f3 s : Ccv (tsum (f1, f2, f3) s s) (RtoC (- beta ^ 2 / 4 + (2 * f2 + f3) * (beta ^ 4 / 48))).
Proof.
  apply Ccv_ext with (fun N => W beta 2 s N - RtoC (2 * f1) * W beta 3 s N + RtoC (2 * f2 + f3) * W beta 4 s N).
  - intros N. unfold tsum, W. rewrite (zsumC_ext _ _ (fun n => term beta (f1, f2, f3) (n + s) (n + s)) _ (fun n _ => term_same f1 f2 f3 (n + s))).
    rewrite zsumC_plus, zsumC_minus, !zsumC_scal. reflexivity.
  - replace (RtoC (- beta ^ 2 / 4 + (2 * f2 + f3) * (beta ^ 4 / 48))) with (RtoC (- beta ^ 2 / 4) - RtoC (2 * f1) * RtoC 0 + RtoC (2 * f2 + f3) * RtoC (beta ^ 4 / 48)).
    + exact (Ccv_plus _ _ _ _ (Ccv_minus _ _ _ _ (W2_cv beta Hb s) (Ccv_scal (RtoC (2 * f1)) _ _ (W3_cv beta Hb s))) (Ccv_scal (RtoC (2 * f2 + f3)) _ _ (W4_cv beta Hb s))).
    + rewrite (RtoC_plus (- beta ^ 2 / 4)), (RtoC_mult (2 * f2 + f3)). ring.
Qed.
Lemma sh_diff c w : (sh2 c w - sh1 c w = w \/ sh2 c w - sh1 c w = - w)%Z.
Proof. destruct c; simpl; lia. Qed.
Lemma dfreq_sq c w : dfreq (sh2 c w - sh1 c w) * dfreq (sh2 c w - sh1 c w) = dfreq w * dfreq w.
Proof. destruct (sh_diff c w) as [->| ->]; [reflexivity|]. unfold dfreq. rewrite opp_IZR, Ropp_mult_distr_r_reverse, RtoC_opp. ring. Qed.
Lemma exact_cv facs c w : Ccv (fun N => RtoC (-1 / beta) * tsum facs (sh1 c w) (sh2 c w) N) (exact_w beta facs w).
Proof.
  destruct facs as [[f1 f2] f3]. unfold exact_w. destruct (Z.eqb_spec w 0) as [->|Hw].
  - replace (RtoC (beta / 4 - beta ^ 3 / 24 * f2 - beta ^ 3 / 48 * f3)) with (RtoC (-1 / beta) * RtoC (- beta ^ 2 / 4 + (2 * f2 + f3) * (beta ^ 4 / 48))).
    + apply Ccv_scal. replace (sh2 c 0) with (sh1 c 0) by now destruct c. apply tsum_same_cv.
    + rewrite <- RtoC_mult. f_equal. field. exact Hb.
  - assert (Hd : (sh1 c w <> sh2 c w)%Z) by (destruct (sh_diff c w); lia).
    pose proof (Ccv_scal (RtoC (-1 / beta)) _ _ (tsum_diff_cv f1 f2 f3 _ _ Hd)) as H. rewrite dfreq_sq in H.
    assert (E : Cmult (RtoC (IZR w * 2 * PI / beta)) Ci = dfreq w).
    { unfold dfreq. replace (2 * PI / beta * IZR w)%R with (IZR w * 2 * PI / beta)%R by (field; exact Hb). ring. }
    rewrite E. pose proof (dfreq_neq0 w Hw).
    replace (RtoC (- beta / 2 * 1) * / (dfreq w * dfreq w) * RtoC (f2 - f3)) with
      (RtoC (-1 / beta) * (RtoC (f3 - f2) / (dfreq w * dfreq w) * RtoC (- beta ^ 2 / 2))); [exact H|].
    replace (RtoC (-1 / beta) * (RtoC (f3 - f2) / (dfreq w * dfreq w) * RtoC (- beta ^ 2 / 2))) with (RtoC (-1 / beta * (f3 - f2) * (- beta ^ 2 / 2)) * / (dfreq w * dfreq w))
      by (rewrite !RtoC_mult; unfold Cdiv; ring).
    replace (-1 / beta * (f3 - f2) * (- beta ^ 2 / 2))%R with ((- beta / 2 * 1) * (f2 - f3))%R by (field; exact Hb). rewrite (RtoC_mult (- beta / 2 * 1)). ring.
Qed.
End Lim.

(** * The model computes these sums *)
Lemma v_arr_frow beta n : v_arr beta n = frow n (fun k => / inu beta k).
Proof.
  unfold v_arr, frow, vn. rewrite !Z.add_0_r. apply map_ext. intros k. unfold inu, Cdiv. ring.
Qed.
Lemma clsum_frow n f : clsum (frow n f) = zsumC (- n) n f.
Proof. reflexivity. Qed.
Lemma asympt_sum_w_ok beta n niv facs c w : (0 <= niv)%Z -> (niv + Z.abs w <= n)%Z ->
  asympt_sum_w (v_arr beta n) niv facs (name c) w = Ok (zsumC (- niv) niv (fun k => term beta facs (k + sh1 c w) (k + sh2 c w))).
Proof.
  intros Hn Hw. pose proof (@sh1_le c w) as H1. pose proof (@sh2_le c w) as H2. unfold asympt_sum_w. rewrite v_arr_frow, zlen_frow by lia.
  rewrite half2, shift_conv. cbn [bind fst snd]. rewrite !frow_window by lia. destruct facs as [[f1 f2] f3].
  unfold np_map2. rewrite !zlen_frow, Z.eqb_refl by lia. rewrite !frow_map2 by lia. cbn [bind]. rewrite !clsum_frow. f_equal.
  unfold term. rewrite !zsumC_plus, zsumC_minus.
  rewrite !(zsumC_ext _ _ (fun n0 => _ * RtoC _) (fun n0 => RtoC _ * _) (fun n0 _ => Cmult_comm _ _)), !zsumC_scal, !zsumC_plus. ring.
Qed.
