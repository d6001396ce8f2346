(** The sums of 1/(2k+1)^2 and 1/(2k+1)^4 (pi^2/8 and pi^4/96), by halving angles. *)
From Coq Require Import Reals Lra Lia Arith.
Local Open Scope R_scope.

Fixpoint rsum (n : nat) (f : nat -> R) : R := match n with O => 0 | S m => rsum m f + f m end.
Lemma rsum_ext n f g : (forall k, (k < n)%nat -> f k = g k) -> rsum n f = rsum n g.
Proof. induction n as [|n IH]; intros H; simpl; [reflexivity|]. rewrite IH, H; auto. Qed.
Lemma rsum_le n f g : (forall k, (k < n)%nat -> f k <= g k) -> rsum n f <= rsum n g.
Proof. induction n as [|n IH]; intros H; simpl; [lra|]. apply Rplus_le_compat; auto. Qed.
Lemma rsum_scal n c f : rsum n (fun k => c * f k) = c * rsum n f.
Proof. induction n as [|n IH]; simpl; [ring|]. rewrite IH. ring. Qed.
Lemma rsum_plus n f g : rsum n (fun k => f k + g k) = rsum n f + rsum n g.
Proof. induction n as [|n IH]; simpl; [ring|]. rewrite IH. ring. Qed.
Lemma rsum_const n c : rsum n (fun _ => c) = INR n * c.
Proof. induction n as [|n IH]; [simpl; ring|]. simpl rsum. rewrite IH, S_INR. ring. Qed.
Lemma rsum_add n m f : rsum (n + m) f = rsum n f + rsum m (fun k => f (n + k)%nat).
Proof. induction m as [|m IH]; simpl; [rewrite Nat.add_0_r; ring|]. rewrite Nat.add_succ_r. simpl. rewrite IH. ring. Qed.
Lemma rsum_S_l n f : rsum (S n) f = f 0%nat + rsum n (fun k => f (S k)).
Proof. change (S n) with (1 + n)%nat. rewrite rsum_add. simpl. ring. Qed.
Lemma rsum_rev n f : rsum n (fun k => f (n - 1 - k)%nat) = rsum n f.
Proof.
  induction n as [|n IH]; [reflexivity|]. rewrite rsum_S_l. simpl rsum at 2. rewrite <- IH, Rplus_comm. f_equal.
  - apply rsum_ext. intros k Hk. f_equal. lia.
  - f_equal. lia.
Qed.

Definition csc2 (x : R) : R := / (sin x ^ 2).
Definition ang (N k : nat) : R := INR (2 * k + 1) * PI / (2 * INR N).

Lemma ang_pos N k : (0 < N)%nat -> 0 < ang N k.
Proof.
  intros HN. unfold ang. apply Rdiv_lt_0_compat; [apply Rmult_lt_0_compat; [apply lt_0_INR; lia|apply PI_RGT_0]|].
  apply Rmult_lt_0_compat; [lra|apply lt_0_INR; lia].
Qed.
Lemma ang_lt_pi N k : (k < N)%nat -> ang N k < PI.
Proof.
  intros Hk. unfold ang. assert (HN : 0 < INR N) by (apply lt_0_INR; lia). pose proof PI_RGT_0.
  apply Rmult_lt_reg_r with (2 * INR N); [lra|]. unfold Rdiv. rewrite Rmult_assoc, Rinv_l, Rmult_1_r by lra.
  assert (INR (2 * k + 1) < 2 * INR N). { change 2 with (INR 2). rewrite <- mult_INR. apply lt_INR. lia. }
  nra.
Qed.
Lemma ang_lt_pi2 N k : (2 * k + 1 < N)%nat -> ang N k < PI / 2.
Proof.
  intros Hk. unfold ang. assert (HN : 0 < INR N) by (apply lt_0_INR; lia). pose proof PI_RGT_0.
  apply Rmult_lt_reg_r with (2 * INR N); [lra|]. unfold Rdiv. rewrite Rmult_assoc, Rinv_l, Rmult_1_r by lra.
  assert (INR (2 * k + 1) < INR N) by (apply lt_INR; lia).
  nra.
Qed.
Lemma sin_ang_neq0 N k : (k < N)%nat -> sin (ang N k) <> 0.
Proof. intros H. apply Rgt_not_eq, sin_gt_0; [apply ang_pos; lia|now apply ang_lt_pi]. Qed.

(** the doubling identities *)
Lemma sin_double_half x : sin x = 2 * sin (x / 2) * cos (x / 2).
Proof. rewrite <- sin_2a. f_equal. field. Qed.
Lemma csc2_double x : sin (x / 2) <> 0 -> cos (x / 2) <> 0 ->
  csc2 (x / 2) + csc2 (x / 2 + PI / 2) = 4 * csc2 x.
Proof.
  intros Hs Hc. unfold csc2. rewrite (sin_double_half x).
  replace (sin (x / 2 + PI / 2)) with (cos (x / 2)) by (rewrite <- sin_shift; rewrite <- (sin_PI_x (x/2 + PI/2)); f_equal; field).
  pose proof (sin2_cos2 (x / 2)) as H. unfold Rsqr in H. set (s := sin (x / 2)) in *. set (c := cos (x / 2)) in *.
  transitivity ((s * s + c * c) / (s ^ 2 * c ^ 2)); [field; auto|]. rewrite H. field. auto.
Qed.
Lemma csc4_double x : sin (x / 2) <> 0 -> cos (x / 2) <> 0 ->
  csc2 (x / 2) ^ 2 + csc2 (x / 2 + PI / 2) ^ 2 = 16 * csc2 x ^ 2 - 8 * csc2 x.
Proof.
  intros Hs Hc. pose proof (csc2_double x Hs Hc) as H1.
  assert (H2 : csc2 (x / 2) * csc2 (x / 2 + PI / 2) = 4 * csc2 x).
  { unfold csc2. rewrite (sin_double_half x).
    replace (sin (x / 2 + PI / 2)) with (cos (x / 2)) by (rewrite <- sin_shift; rewrite <- (sin_PI_x (x/2 + PI/2)); f_equal; field).
    field. auto. }
  assert (E : csc2 (x / 2) ^ 2 + csc2 (x / 2 + PI / 2) ^ 2
              = (csc2 (x / 2) + csc2 (x / 2 + PI / 2)) ^ 2 - 2 * (csc2 (x / 2) * csc2 (x / 2 + PI / 2))) by ring.
  rewrite E, H1, H2. ring.
Qed.

Definition A (N : nat) : R := rsum N (fun k => csc2 (ang N k)).
Definition B (N : nat) : R := rsum N (fun k => csc2 (ang N k) ^ 2).

Lemma ang_half N k : (0 < N)%nat -> ang (2 * N) k = ang N k / 2.
Proof. intros H. unfold ang. rewrite mult_INR. simpl (INR 2). field. apply not_0_INR. lia. Qed.
Lemma ang_half_shift N k : (0 < N)%nat -> ang (2 * N) (N + k) = ang N k / 2 + PI / 2.
Proof.
  intros H. unfold ang. replace (2 * (N + k) + 1)%nat with (2 * k + 1 + 2 * N)%nat by lia. rewrite plus_INR, (mult_INR 2 N). simpl (INR 2).
  field. apply not_0_INR. lia.
Qed.
Lemma half_neq0 N k : (k < N)%nat -> sin (ang N k / 2) <> 0 /\ cos (ang N k / 2) <> 0.
Proof.
  intros H. pose proof (ang_pos N k ltac:(lia)). pose proof (ang_lt_pi N k H). split; apply Rgt_not_eq.
  - apply sin_gt_0; lra.
  - apply cos_gt_0; lra.
Qed.
Lemma A_double N : (0 < N)%nat -> A (2 * N) = 4 * A N.
Proof.
  intros H. unfold A. replace (2 * N)%nat with (N + N)%nat at 1 by lia. rewrite rsum_add, <- rsum_plus, <- rsum_scal.
  apply rsum_ext. intros k Hk. rewrite ang_half, ang_half_shift by lia. destruct (half_neq0 N k Hk). now apply csc2_double.
Qed.
Lemma B_double N : (0 < N)%nat -> B (2 * N) = 16 * B N - 8 * A N.
Proof.
  intros H. unfold A, B. replace (2 * N)%nat with (N + N)%nat at 1 by lia. rewrite rsum_add, <- rsum_plus.
  replace (16 * rsum N (fun k => csc2 (ang N k) ^ 2) - 8 * rsum N (fun k => csc2 (ang N k)))
    with (rsum N (fun k => 16 * csc2 (ang N k) ^ 2 + (-8) * csc2 (ang N k))).
  2:{ rewrite rsum_plus, !rsum_scal. ring. }
  apply rsum_ext. intros k Hk. rewrite ang_half, ang_half_shift by lia. destruct (half_neq0 N k Hk).
  rewrite csc4_double by auto. ring.
Qed.
Lemma A_pow n : A (2 ^ n) = INR (2 ^ n) ^ 2.
Proof.
  induction n as [|n IH].
  - simpl. unfold A, ang, csc2. simpl. replace (1 * PI / (2 * 1)) with (PI / 2) by field. rewrite sin_PI2. field.
  - rewrite Nat.pow_succ_r'. rewrite A_double, IH, mult_INR; [simpl (INR 2); ring|]. apply Nat.neq_0_lt_0, Nat.pow_nonzero. lia.
Qed.
Lemma B_pow n : B (2 ^ n) = (INR (2 ^ n) ^ 4 + 2 * INR (2 ^ n) ^ 2) / 3.
Proof.
  induction n as [|n IH].
  - simpl. unfold B, ang, csc2. simpl. replace (1 * PI / (2 * 1)) with (PI / 2) by field. rewrite sin_PI2. field.
  - rewrite Nat.pow_succ_r'. rewrite B_double, IH, A_pow, mult_INR; [simpl (INR 2); field|]. apply Nat.neq_0_lt_0, Nat.pow_nonzero. lia.
Qed.

(** half of the angles *)
Lemma ang_mirror N k : (k < N)%nat -> ang N (N - 1 - k) = PI - ang N k.
Proof.
  intros H. unfold ang. assert (INR N <> 0) by (apply not_0_INR; lia).
  replace (INR (2 * (N - 1 - k) + 1)) with (2 * INR N - INR (2 * k + 1)); [field; auto|].
  assert (E : (2 * (N - 1 - k) + 1 + (2 * k + 1) = 2 * N)%nat) by lia. apply (f_equal INR) in E. rewrite plus_INR, (mult_INR 2 N) in E. simpl (INR 2) in E. lra.
Qed.
Lemma half_sum M (f : R -> R) : (forall x, f (PI - x) = f x) ->
  rsum (2 * M) (fun k => f (ang (2 * M) k)) = 2 * rsum M (fun k => f (ang (2 * M) k)).
Proof.
  intros Hf. set (N := (2 * M)%nat). unfold N at 1. replace (2 * M)%nat with (M + M)%nat by lia. rewrite rsum_add.
  rewrite <- (rsum_rev M (fun k => f (ang N (M + k)))).
  enough (rsum M (fun k => f (ang N (M + (M - 1 - k)))) = rsum M (fun k => f (ang N k))) by lra.
  apply rsum_ext. intros k Hk. rewrite <- (Hf (ang N k)), <- ang_mirror by (unfold N; lia). do 2 f_equal. unfold N. lia.
Qed.
Lemma csc2_mirror x : csc2 (PI - x) = csc2 x.
Proof. unfold csc2. now rewrite sin_PI_x. Qed.
Lemma A_half n : rsum (2 ^ n) (fun k => csc2 (ang (2 ^ S n) k)) = INR (2 ^ S n) ^ 2 / 2.
Proof. rewrite <- A_pow. unfold A. rewrite Nat.pow_succ_r', (half_sum (2 ^ n) csc2 csc2_mirror). lra. Qed.
Lemma B_half n : rsum (2 ^ n) (fun k => csc2 (ang (2 ^ S n) k) ^ 2) = (INR (2 ^ S n) ^ 4 + 2 * INR (2 ^ S n) ^ 2) / 6.
Proof.
  pose proof (B_pow (S n)) as H. unfold B in H. rewrite Nat.pow_succ_r' in H |- *.
  rewrite (half_sum (2 ^ n) (fun x => csc2 x ^ 2)) in H by (intros; now rewrite csc2_mirror). lra.
Qed.

(** bounds *)
Lemma csc2_bounds x : 0 < x -> x < PI / 2 -> / x ^ 2 <= csc2 x <= / x ^ 2 + 1.
Proof.
  intros H0 H1. unfold csc2. assert (Hs : 0 < sin x) by (apply sin_gt_0; lra). assert (Hc : 0 < cos x) by (apply cos_gt_0; lra).
  assert (Hl : sin x < x) by (apply sin_lt_x; lra). split.
  - apply Rinv_le_contravar; [apply pow_lt; auto|]. apply pow_incr. lra.
  - (* x <= tan x *)
    assert (Ht : x * cos x <= sin x).
    { destruct (MVT_cor2 (fun y => sin y - y * cos y) (fun y => y * sin y) 0 x H0) as [c [E [Hc1 Hc2]]].
      - intros c _.
        replace (c * sin c) with (cos c - (1 * cos c + c * (- sin c))) by ring.
        apply (derivable_pt_lim_minus sin (fun y => y * cos y)); [apply derivable_pt_lim_sin|].
        apply (derivable_pt_lim_mult (fun y => y) cos); [apply derivable_pt_lim_id|apply derivable_pt_lim_cos].
      - assert (0 < sin c) by (apply sin_gt_0; lra). rewrite sin_0 in E.
        assert (0 <= c * sin c * (x - 0)) by (apply Rmult_le_pos; [apply Rmult_le_pos; lra|lra]). lra. }
    assert (E : / sin x ^ 2 = cos x ^ 2 / sin x ^ 2 + 1).
    { pose proof (sin2_cos2 x) as H. unfold Rsqr in H. transitivity ((sin x * sin x + cos x * cos x) / sin x ^ 2); [rewrite H|]; field; lra. }
    rewrite E. apply Rplus_le_compat_r. apply Rmult_le_reg_r with (sin x ^ 2); [apply pow_lt; auto|].
    unfold Rdiv. rewrite Rmult_assoc, Rinv_l, Rmult_1_r by (apply pow_nonzero; lra).
    apply Rmult_le_reg_l with (x ^ 2); [apply pow_lt; auto|]. rewrite <- Rmult_assoc, Rinv_r, Rmult_1_l by (apply pow_nonzero; lra).
    rewrite <- Rpow_mult_distr. apply pow_incr. nra.
Qed.

(** * The limits *)
Definition odd_sum (p n : nat) : R := rsum n (fun k => / INR (2 * k + 1) ^ p).
Lemma odd_sum_mono p n m : (n <= m)%nat -> odd_sum p n <= odd_sum p m.
Proof.
  intros H. induction H as [|m H IH]; [lra|]. change (odd_sum p (S m)) with (odd_sum p m + / INR (2 * m + 1) ^ p).
  assert (0 < / INR (2 * m + 1) ^ p) by (apply Rinv_0_lt_compat, pow_lt, lt_0_INR; lia).
  lra.
Qed.
Lemma ang_inv2 M k : (0 < M)%nat -> / ang (2 * M) k ^ 2 = (16 * INR M ^ 2 / PI ^ 2) * / INR (2 * k + 1) ^ 2.
Proof.
  intros H. unfold ang. rewrite (mult_INR 2 M). simpl (INR 2). pose proof PI_RGT_0. field.
  repeat split; try (apply not_0_INR; lia); lra.
Qed.
Lemma odd2_bounds n : let M := INR (2 ^ n) in
  16 * M ^ 2 / PI ^ 2 * odd_sum 2 (2 ^ n) <= 2 * M ^ 2 <= 16 * M ^ 2 / PI ^ 2 * odd_sum 2 (2 ^ n) + M.
Proof.
  intros M. assert (HM : (0 < 2 ^ n)%nat) by (apply Nat.neq_0_lt_0, Nat.pow_nonzero; lia).
  assert (E : rsum (2 ^ n) (fun k => csc2 (ang (2 ^ S n) k)) = 2 * M ^ 2).
  { rewrite A_half, Nat.pow_succ_r', mult_INR. simpl (INR 2). unfold M. field. }
  assert (Hb : forall k, (k < 2 ^ n)%nat -> / ang (2 ^ S n) k ^ 2 <= csc2 (ang (2 ^ S n) k) <= / ang (2 ^ S n) k ^ 2 + 1).
  { intros k Hk. apply csc2_bounds; [apply ang_pos|apply ang_lt_pi2]; rewrite Nat.pow_succ_r'; lia. }
  assert (E2 : rsum (2 ^ n) (fun k => / ang (2 ^ S n) k ^ 2) = 16 * M ^ 2 / PI ^ 2 * odd_sum 2 (2 ^ n)).
  { unfold odd_sum. rewrite <- rsum_scal. apply rsum_ext. intros k Hk. rewrite Nat.pow_succ_r'. now apply ang_inv2. }
  rewrite <- E2, <- E. split.
  - apply rsum_le. intros k Hk. apply Hb, Hk.
  - replace M with (rsum (2 ^ n) (fun _ => 1)) by (rewrite rsum_const; unfold M; ring). rewrite <- rsum_plus. apply rsum_le. intros k Hk. apply Hb, Hk.
Qed.
Lemma odd4_bounds n : let M := INR (2 ^ n) in
  256 * M ^ 4 / PI ^ 4 * odd_sum 4 (2 ^ n) <= (8 * M ^ 4 + 4 * M ^ 2) / 3
    <= 256 * M ^ 4 / PI ^ 4 * odd_sum 4 (2 ^ n) + 4 * M ^ 2 + M.
Proof.
  intros M. assert (HM : (0 < 2 ^ n)%nat) by (apply Nat.neq_0_lt_0, Nat.pow_nonzero; lia).
  pose proof PI_RGT_0 as HP.
  assert (E : rsum (2 ^ n) (fun k => csc2 (ang (2 ^ S n) k) ^ 2) = (8 * M ^ 4 + 4 * M ^ 2) / 3).
  { rewrite B_half, Nat.pow_succ_r', mult_INR. simpl (INR 2). unfold M. field. }
  assert (Hb : forall k, (k < 2 ^ n)%nat -> 0 < / ang (2 ^ S n) k ^ 2 /\ / ang (2 ^ S n) k ^ 2 <= csc2 (ang (2 ^ S n) k) <= / ang (2 ^ S n) k ^ 2 + 1).
  { intros k Hk. split; [apply Rinv_0_lt_compat, pow_lt, ang_pos; rewrite Nat.pow_succ_r'; lia|].
    apply csc2_bounds; [apply ang_pos|apply ang_lt_pi2]; rewrite Nat.pow_succ_r'; lia. }
  assert (E2 : rsum (2 ^ n) (fun k => / ang (2 ^ S n) k ^ 2) = 16 * M ^ 2 / PI ^ 2 * odd_sum 2 (2 ^ n)).
  { unfold odd_sum. rewrite <- rsum_scal. apply rsum_ext. intros k Hk. rewrite Nat.pow_succ_r'. now apply ang_inv2. }
  assert (E4 : rsum (2 ^ n) (fun k => (/ ang (2 ^ S n) k ^ 2) ^ 2) = 256 * M ^ 4 / PI ^ 4 * odd_sum 4 (2 ^ n)).
  { unfold odd_sum. rewrite <- rsum_scal. apply rsum_ext. intros k Hk. rewrite Nat.pow_succ_r', ang_inv2 by auto. unfold M. field.
    split; [apply not_0_INR; lia|lra]. }
  pose proof (odd2_bounds n) as [H2 _]. fold M in H2. rewrite <- E2 in H2.
  rewrite <- E4, <- E. split.
  - apply rsum_le. intros k Hk. destruct (Hb k Hk) as [Hp [Hl Hu]]. apply pow_incr. lra.
  - apply Rle_trans with (rsum (2 ^ n) (fun k => (/ ang (2 ^ S n) k ^ 2) ^ 2 + (2 * / ang (2 ^ S n) k ^ 2 + 1))).
    + apply rsum_le. intros k Hk. destruct (Hb k Hk) as [Hp [Hl Hu]]. nra.
    + rewrite !rsum_plus, rsum_scal, rsum_const. fold M. lra.
Qed.
Lemma mono_pow2_cv (s : nat -> R) (L K : R) : (forall n m, (n <= m)%nat -> s n <= s m) -> 0 < K ->
  (forall j, Rabs (s (2 ^ j)%nat - L) <= K / INR (2 ^ j)) -> Un_cv s L.
Proof.
  intros Hm HK Hj eps Heps.
  assert (Hlim : exists j0, forall j, (j0 <= j)%nat -> K / INR (2 ^ j) < eps).
  { destruct (archimed_cor1 (eps / K)) as [N [HN HN0]]; [apply Rdiv_lt_0_compat; lra|]. exists N. intros j Hjn.
    assert (HNj : INR N <= INR (2 ^ j)).
    { apply le_INR. pose proof (Nat.pow_gt_lin_r 2 j). lia. }
    assert (0 < INR N) by (apply lt_0_INR; lia).
    assert (/ INR (2 ^ j) <= / INR N) by (apply Rinv_le_contravar; auto).
    unfold Rdiv in *. apply Rle_lt_trans with (K * / INR N); [apply Rmult_le_compat_l; lra|].
    apply Rmult_lt_reg_r with (/ K); [apply Rinv_0_lt_compat; lra|].
    replace (K * / INR N * / K) with (/ INR N) by (field; lra). exact HN. }
  destruct Hlim as [j0 Hj0]. exists (2 ^ j0)%nat. intros n Hn. unfold R_dist. apply Rabs_def1.
  - set (j := Nat.max n j0). assert (s n <= s (2 ^ j)%nat). { apply Hm. pose proof (Nat.pow_gt_lin_r 2 j). lia. }
    pose proof (Hj j) as H1. pose proof (Hj0 j ltac:(lia)).
    assert (s (2 ^ j)%nat - L <= K / INR (2 ^ j)) by (eapply Rle_trans; [apply Rle_abs|apply Hj]). lra.
  - assert (s (2 ^ j0)%nat <= s n) by (apply Hm; lia).
    assert (- (s (2 ^ j0)%nat - L) <= K / INR (2 ^ j0)) by (eapply Rle_trans; [apply Rle_abs|rewrite Rabs_Ropp; apply Hj]).
    pose proof (Hj0 j0 ltac:(lia)). lra.
Qed.
Lemma odd_sum2_cv : Un_cv (odd_sum 2) (PI ^ 2 / 8).
Proof.
  pose proof PI_RGT_0 as HP. assert (HP2 : 0 < PI ^ 2) by (apply pow_lt; lra).
  apply mono_pow2_cv with (K := PI ^ 2); [intros; now apply odd_sum_mono|lra|]. intros j.
  pose proof (odd2_bounds j) as [H1 H2]. cbv zeta in *. set (M := INR (2 ^ j)) in *. set (s := odd_sum 2 (2 ^ j)) in *.
  assert (HM : 0 < M) by (apply lt_0_INR, Nat.neq_0_lt_0, Nat.pow_nonzero; lia).
  assert (HM2 : 0 < M ^ 2) by (apply pow_lt; lra).
  assert (Es : 16 * M ^ 2 / PI ^ 2 * s = 16 * M ^ 2 * (s / PI ^ 2)) by (field; lra). rewrite Es in *.
  set (r := s / PI ^ 2) in *. assert (Hs : s = r * PI ^ 2) by (unfold r; field; lra). rewrite Hs.
  assert (Hr1 : 8 * r <= 1). { apply Rmult_le_reg_l with (2 * M ^ 2); [lra|]. lra. }
  assert (Hr2 : 1 - 8 * r <= / M).
  { apply Rmult_le_reg_l with (M ^ 2); [lra|]. replace (M ^ 2 * / M) with M by (field; lra). lra. }
  assert (E : r * PI ^ 2 - PI ^ 2 / 8 = - ((1 - 8 * r) / 8 * PI ^ 2)) by field. rewrite E, Rabs_Ropp, Rabs_pos_eq.
  2:{ apply Rmult_le_pos; lra. }
  unfold Rdiv. rewrite (Rmult_comm (PI ^ 2)). apply Rmult_le_compat_r; lra.
Qed.
Lemma odd_sum4_cv : Un_cv (odd_sum 4) (PI ^ 4 / 96).
Proof.
  pose proof PI_RGT_0 as HP. assert (HP2 : 0 < PI ^ 4) by (apply pow_lt; lra).
  apply mono_pow2_cv with (K := PI ^ 4); [intros; now apply odd_sum_mono|lra|]. intros j.
  pose proof (odd4_bounds j) as [H1 H2]. cbv zeta in *. set (M := INR (2 ^ j)) in *. set (s := odd_sum 4 (2 ^ j)) in *.
  assert (HM : 1 <= M). { change 1 with (INR 1). apply le_INR. pose proof (Nat.pow_nonzero 2 j). lia. }
  assert (Es : 256 * M ^ 4 / PI ^ 4 * s = 256 * M ^ 4 * (s / PI ^ 4)) by (field; lra). rewrite Es in *.
  set (r := s / PI ^ 4) in *. assert (Hs : s = r * PI ^ 4) by (unfold r; field; lra). rewrite Hs.
  assert (E : r * PI ^ 4 - PI ^ 4 / 96 = (r - / 96) * PI ^ 4) by field.
  rewrite E, Rabs_mult, (Rabs_pos_eq (PI ^ 4)) by lra. unfold Rdiv. rewrite (Rmult_comm (PI ^ 4)). apply Rmult_le_compat_r; [lra|].
  set (y := / M). assert (Hy : 0 < y) by (apply Rinv_0_lt_compat; lra). assert (Hy1 : M * y = 1) by (unfold y; field; lra).
  assert (Hyl : y <= 1) by nra.
  assert (G1 : 256 * r <= (8 + 4 * y ^ 2) / 3).
  { apply Rmult_le_compat_r with (r := y ^ 4) in H1; [|apply pow_le; lra].
    replace (256 * M ^ 4 * r * y ^ 4) with (256 * r * (M * y) ^ 4) in H1 by ring.
    replace ((8 * M ^ 4 + 4 * M ^ 2) / 3 * y ^ 4) with ((8 * (M * y) ^ 4 + 4 * (M * y) ^ 2 * y ^ 2) / 3) in H1 by field.
    rewrite Hy1 in H1. lra. }
  assert (G2 : (8 + 4 * y ^ 2) / 3 <= 256 * r + 4 * y ^ 2 + y ^ 3).
  { apply Rmult_le_compat_r with (r := y ^ 4) in H2; [|apply pow_le; lra].
    replace ((256 * M ^ 4 * r + 4 * M ^ 2 + M) * y ^ 4) with (256 * r * (M * y) ^ 4 + 4 * (M * y) ^ 2 * y ^ 2 + (M * y) * y ^ 3) in H2 by ring.
    replace ((8 * M ^ 4 + 4 * M ^ 2) / 3 * y ^ 4) with ((8 * (M * y) ^ 4 + 4 * (M * y) ^ 2 * y ^ 2) / 3) in H2 by field.
    rewrite Hy1 in H2. lra. }
  apply Rabs_le. assert (y ^ 2 <= y) by nra. assert (y ^ 3 <= y) by nra. split; lra.
Qed.
