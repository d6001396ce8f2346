(** The order of the error that the high-frequency correction leaves. *)
From Coq Require Import Reals ZArith List Lia Lra Psatz.
From Coquelicot Require Import Complex.
From Verif Require Import Base.PyBase Base.PyFacts Spec.AsymptSpec Proofs.BubbleAsymptP.
Import ListNotations.
Local Open Scope R_scope.
Local Open Scope C_scope.
Local Arguments Cmod (_)%C_scope.

(** * Sums of terms of fifth order *)
Lemma step5 (n : R) : (2 <= n)%R -> (/ n ^ 5 <= / (n - 1) ^ 4 - / n ^ 4)%R.
Proof.
  intros H. assert (0 < n)%R by lra. assert (0 < n - 1)%R by lra.
  apply Rmult_le_reg_r with (n ^ 5 * (n - 1) ^ 4)%R; [apply Rmult_lt_0_compat; apply pow_lt; lra|].
  replace (/ n ^ 5 * (n ^ 5 * (n - 1) ^ 4))%R with ((n - 1) ^ 4)%R by (field; lra).
  replace ((/ (n - 1) ^ 4 - / n ^ 4) * (n ^ 5 * (n - 1) ^ 4))%R with (n ^ 5 - n * (n - 1) ^ 4)%R by (field; lra).
  set (m := (n - 1)%R). replace n with (m + 1)%R by (unfold m; ring). assert (1 <= m)%R by (unfold m; lra).
  assert (0 <= m ^ 3)%R by (apply pow_le; lra). assert (0 <= m ^ 2)%R by (apply pow_le; lra). assert (0 <= m ^ 4)%R by (apply pow_le; lra). nra.
Qed.
Lemma tail_up f (K : R) (a : Z) (N : nat) : (2 <= a)%Z -> (0 <= K)%R -> (forall n, (a <= n)%Z -> (Cmod (f n) <= K / IZR n ^ 5)%R) ->
  (Cmod (zsumC a (a + Z.of_nat N) f) <= K * (/ IZR (a - 1) ^ 4 - / IZR (a + Z.of_nat N - 1) ^ 4))%R.
Proof.
  intros Ha HK Hf. induction N as [|N IH].
  - rewrite Z.add_0_r, zsumC_empty by lia. rewrite Cmod_0. lra.
  - rewrite Nat2Z.inj_succ. rewrite (zsumC_split a (a + Z.of_nat N)) by lia.
    replace (a + Z.succ (Z.of_nat N))%Z with (a + Z.of_nat N + 1)%Z by lia. rewrite zsumC_one.
    eapply Rle_trans; [apply Cmod_triangle|]. set (n := (a + Z.of_nat N)%Z) in *. specialize (Hf n ltac:(lia)).
    replace (n + 1 - 1)%Z with n by lia. rewrite (minus_IZR n 1) in IH.
    pose proof (step5 (IZR n) (IZR_le 2 n ltac:(lia))) as H5. apply Rmult_le_compat_l with (r := K) in H5; [|exact HK]. unfold Rdiv in Hf. lra.
Qed.
Lemma tail_down f (K : R) (a : Z) (N : nat) : (2 <= a)%Z -> (0 <= K)%R -> (forall n, (n <= - a)%Z -> (Cmod (f n) <= K / IZR (- n) ^ 5)%R) ->
  (Cmod (zsumC (- a - Z.of_nat N) (- a) f) <= K * (/ IZR (a - 1) ^ 4 - / IZR (a + Z.of_nat N - 1) ^ 4))%R.
Proof.
  intros Ha HK Hf. induction N as [|N IH].
  - rewrite Z.sub_0_r, Z.add_0_r, zsumC_empty by lia. rewrite Cmod_0. lra.
  - rewrite Nat2Z.inj_succ. set (m := (- a - Z.succ (Z.of_nat N))%Z).
    rewrite (zsumC_split m (m + 1)) by lia. rewrite zsumC_one. replace (m + 1)%Z with (- a - Z.of_nat N)%Z by lia.
    eapply Rle_trans; [apply Cmod_triangle|]. specialize (Hf m ltac:(lia)).
    set (n := (a + Z.of_nat N)%Z) in *. replace (a + Z.succ (Z.of_nat N) - 1)%Z with n by lia. rewrite (minus_IZR n 1) in IH.
    assert (H5 : (/ IZR (- m) ^ 5 <= / (IZR n - 1) ^ 4 - / IZR n ^ 4)%R).
    { eapply Rle_trans; [|apply step5; apply (IZR_le 2 n); lia].
      apply Rinv_le_contravar; [apply pow_lt, (IZR_lt 0); lia|]. apply pow_incr. split; [apply (IZR_le 0); lia|apply IZR_le; lia]. }
    apply Rmult_le_compat_l with (r := K) in H5; [|exact HK]. unfold Rdiv in Hf. lra.
Qed.
Lemma tail_bound f (K : R) (a M : Z) : (2 <= a)%Z -> (a <= M)%Z -> (0 <= K)%R -> (forall n, (a <= Z.abs n)%Z -> (Cmod (f n) <= K / IZR (Z.abs n) ^ 5)%R) ->
  (Cmod (zsumC (- M) (- a) f + zsumC a M f) <= 2 * K * / IZR (a - 1) ^ 4)%R.
Proof.
  intros Ha HM HK Hf. set (N := Z.to_nat (M - a)). assert (EN : Z.of_nat N = (M - a)%Z) by (unfold N; rewrite Z2Nat.id; lia).
  eapply Rle_trans; [apply Cmod_triangle|].
  assert (H1 := tail_up f K a N Ha HK). assert (H2 := tail_down f K a N Ha HK). rewrite EN in H1, H2.
  replace (a + (M - a))%Z with M in H1 by lia. replace (- a - (M - a))%Z with (- M)%Z in H2 by lia. replace (a + (M - a) - 1)%Z with (M - 1)%Z in H2 by lia.
  assert (Hp : (0 <= K * / IZR (M - 1) ^ 4)%R). { apply Rmult_le_pos; [exact HK|]. left. apply Rinv_0_lt_compat, pow_lt, (IZR_lt 0). lia. }
  lapply H1; [intros H1'|intros n Hn; specialize (Hf n ltac:(lia)); rewrite Z.abs_eq in Hf by lia; exact Hf].
  lapply H2; [intros H2'|intros n Hn; specialize (Hf n ltac:(lia)); rewrite Z.abs_neq in Hf by lia; exact Hf].
  lra.
Qed.

(** * Cauchy sequences *)
Lemma Re_le_Cmod z : (Rabs (Re z) <= Cmod z)%R.
Proof. eapply Rle_trans; [|apply Rmax_Cmod]. apply Rmax_l. Qed.
Lemma Im_le_Cmod z : (Rabs (Im z) <= Cmod z)%R.
Proof. eapply Rle_trans; [|apply Rmax_Cmod]. apply Rmax_r. Qed.
Lemma Cmod_le_sum z : (Cmod z <= Rabs (Re z) + Rabs (Im z))%R.
Proof.
  replace z with (RtoC (Re z) + Ci * RtoC (Im z)) at 1.
  - eapply Rle_trans; [apply Cmod_triangle|]. rewrite Cmod_mult, Cmod_Ci, !Cmod_R. lra.
  - destruct z as [x y]. unfold RtoC, Ci, Cplus, Cmult, Re, Im; simpl. f_equal; ring.
Qed.
Lemma Ccauchy_cv (u : nat -> C) : (forall eps, (0 < eps)%R -> exists N, forall n m, (N <= n)%nat -> (N <= m)%nat -> (Cmod (u n - u m) < eps)%R) -> exists l, Ccv u l.
Proof.
  intros H.
  assert (HR : Cauchy_crit (fun n => Re (u n))).
  { intros eps He. destruct (H eps He) as [N HN]. exists N. intros n m Hn Hm. unfold R_dist. specialize (HN n m Hn Hm).
    eapply Rle_lt_trans; [|exact HN]. apply (Re_le_Cmod (u n - u m)). }
  assert (HI : Cauchy_crit (fun n => Im (u n))).
  { intros eps He. destruct (H eps He) as [N HN]. exists N. intros n m Hn Hm. unfold R_dist. specialize (HN n m Hn Hm).
    eapply Rle_lt_trans; [|exact HN]. apply (Im_le_Cmod (u n - u m)). }
  destruct (R_complete _ HR) as [x Hx]. destruct (R_complete _ HI) as [y Hy]. exists (x, y). intros eps He.
  destruct (Hx (eps / 2)%R ltac:(lra)) as [N1 H1]. destruct (Hy (eps / 2)%R ltac:(lra)) as [N2 H2]. exists (Nat.max N1 N2). intros n Hn.
  specialize (H1 n ltac:(lia)). specialize (H2 n ltac:(lia)). unfold R_dist in *.
  eapply Rle_lt_trans; [apply Cmod_le_sum|].
  replace (Re (u n - (x, y))) with (Re (u n) - x)%R by reflexivity. replace (Im (u n - (x, y))) with (Im (u n) - y)%R by reflexivity. lra.
Qed.
Lemma sum_order5_cv f (K : R) (n0 : Z) : (0 <= K)%R -> (forall n, (n0 <= Z.abs n)%Z -> (Cmod (f n) <= K / IZR (Z.abs n) ^ 5)%R) ->
  exists l, Ccv (fun N => zsumC (- Z.of_nat N) (Z.of_nat N) f) l.
Proof.
  intros HK Hf. apply Ccauchy_cv. intros eps He.
  destruct (archimed_cor1 (eps / (2 * K + 1))) as [N [HN HN0]]; [apply Rdiv_lt_0_compat; lra|].
  assert (Hone : forall n m, (Z.to_nat n0 + N + 2 <= n)%nat -> (n <= m)%nat -> (Cmod (zsumC (- Z.of_nat m) (Z.of_nat m) f - zsumC (- Z.of_nat n) (Z.of_nat n) f) < eps)%R).
  { intros n m Hn Hm.
    replace (zsumC (- Z.of_nat m) (Z.of_nat m) f - zsumC (- Z.of_nat n) (Z.of_nat n) f) with (zsumC (- Z.of_nat m) (- Z.of_nat n) f + zsumC (Z.of_nat n) (Z.of_nat m) f).
    2:{ rewrite (zsumC_split (- Z.of_nat m) (- Z.of_nat n) (Z.of_nat m)), (zsumC_split (- Z.of_nat n) (Z.of_nat n) (Z.of_nat m)) by lia. ring. }
    eapply Rle_lt_trans; [apply (tail_bound f K); [lia|lia|exact HK|intros k Hk; apply Hf; lia]|].
    set (y := IZR (Z.of_nat n - 1)). assert (Hy : (1 <= y)%R) by (apply (IZR_le 1); lia).
    assert (HyN : (INR N <= y)%R) by (rewrite INR_IZR_INZ; apply IZR_le; lia).
    assert (HNp : (0 < INR N)%R) by (apply lt_0_INR; lia).
    apply Rle_lt_trans with (2 * K * / INR N)%R.
    - apply Rmult_le_compat_l; [lra|]. apply Rinv_le_contravar; [exact HNp|]. assert (y <= y ^ 4)%R. { assert (1 <= y ^ 3)%R by (apply pow_R1_Rle; exact Hy). nra. } lra.
    - apply Rle_lt_trans with ((2 * K + 1) * / INR N)%R; [apply Rmult_le_compat_r; [left; now apply Rinv_0_lt_compat|lra]|].
      apply Rmult_lt_reg_r with (/ (2 * K + 1))%R; [apply Rinv_0_lt_compat; lra|].
      replace ((2 * K + 1) * / INR N * / (2 * K + 1))%R with (/ INR N)%R by (field; lra). exact HN. }
  exists (Z.to_nat n0 + N + 2)%nat. intros n m Hn Hm. destruct (Nat.le_ge_cases n m) as [Hnm|Hnm].
  - replace (zsumC (- Z.of_nat n) (Z.of_nat n) f - zsumC (- Z.of_nat m) (Z.of_nat m) f) with (- (zsumC (- Z.of_nat m) (Z.of_nat m) f - zsumC (- Z.of_nat n) (Z.of_nat n) f)) by ring.
    rewrite Cmod_opp. now apply Hone.
  - now apply Hone.
Qed.

