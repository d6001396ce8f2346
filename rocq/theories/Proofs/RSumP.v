(** Finite sums of real numbers. *)
From Coq Require Import Reals Lra Lia.
From Verif Require Import Base.RSum.
Local Open Scope R_scope.

Lemma rsum_ext n f g : (forall i, (i < n)%nat -> f i = g i) -> rsum n f = rsum n g.
Proof. induction n as [|n IH]; cbn [rsum]; intros H; [reflexivity|]. rewrite (H n) by lia. f_equal. apply IH. intros; apply H; lia. Qed.
Lemma rsum_plus n f g : rsum n (fun i => f i + g i) = rsum n f + rsum n g.
Proof. induction n as [|n IH]; cbn [rsum]; [lra|]. rewrite IH. lra. Qed.
Lemma rsum_minus n f g : rsum n (fun i => f i - g i) = rsum n f - rsum n g.
Proof. induction n as [|n IH]; cbn [rsum]; [lra|]. rewrite IH. lra. Qed.
Lemma rsum_scal n c f : rsum n (fun i => c * f i) = c * rsum n f.
Proof. induction n as [|n IH]; cbn [rsum]; [lra|]. rewrite IH. lra. Qed.
Lemma rsum_scal_r n c f : rsum n (fun i => f i * c) = rsum n f * c.
Proof. induction n as [|n IH]; cbn [rsum]; [lra|]. rewrite IH. lra. Qed.
Lemma rsum_zero n f : (forall i, (i < n)%nat -> f i = 0) -> rsum n f = 0.
Proof. induction n as [|n IH]; cbn [rsum]; intros H; [reflexivity|]. rewrite (H n) by lia. rewrite IH; [lra|]. intros; apply H; lia. Qed.
Lemma rsum_swap n m (f : nat -> nat -> R) : rsum n (fun i => rsum m (f i)) = rsum m (fun j => rsum n (fun i => f i j)).
Proof.
  induction n as [|n IH]; cbn [rsum]; [symmetry; apply rsum_zero; reflexivity|]. rewrite IH. rewrite <- rsum_plus. reflexivity.
Qed.
Lemma rsum_le n f g : (forall i, (i < n)%nat -> f i <= g i) -> rsum n f <= rsum n g.
Proof. induction n as [|n IH]; cbn [rsum]; intros H; [lra|]. assert (f n <= g n) by (apply H; lia). assert (rsum n f <= rsum n g) by (apply IH; intros; apply H; lia). lra. Qed.
Lemma rsum_lt n f g j : (forall i, (i < n)%nat -> f i <= g i) -> (j < n)%nat -> f j < g j -> rsum n f < rsum n g.
Proof.
  induction n as [|n IH]; cbn [rsum]; intros H Hj L; [lia|].
  assert (f n <= g n) by (apply H; lia). assert (rsum n f <= rsum n g) by (apply rsum_le; intros; apply H; lia).
  destruct (Nat.eq_dec j n) as [->|]; [lra|]. assert (rsum n f < rsum n g) by (apply IH; [intros; apply H; lia|lia|assumption]). lra.
Qed.
Lemma rsum_nonneg n f : (forall i, (i < n)%nat -> 0 <= f i) -> 0 <= rsum n f.
Proof. intros H. replace 0 with (rsum n (fun _ => 0)) by (apply rsum_zero; reflexivity). apply rsum_le. exact H. Qed.
Lemma rsum_nonpos n f : (forall i, (i < n)%nat -> f i <= 0) -> rsum n f <= 0.
Proof. intros H. replace 0 with (rsum n (fun _ => 0)) by (apply rsum_zero; reflexivity). apply rsum_le. exact H. Qed.
Lemma rsum_zero_inv n f : (forall i, (i < n)%nat -> 0 <= f i) -> rsum n f = 0 -> forall i, (i < n)%nat -> f i = 0.
Proof.
  intros H Z i Hi. destruct (Req_dec (f i) 0) as [|N]; [assumption|]. exfalso.
  assert (0 < rsum n f); [|lra].
  replace 0 with (rsum n (fun _ => 0)) by (apply rsum_zero; reflexivity).
  apply rsum_lt with i; [exact H|exact Hi|]. specialize (H i Hi). lra.
Qed.
Lemma rsum_S_first n f : rsum (S n) f = f 0%nat + rsum n (fun i => f (S i)).
Proof. induction n as [|n IH]; [cbn [rsum]; lra|]. change (rsum (S (S n)) f) with (rsum (S n) f + f (S n)). rewrite IH. cbn [rsum]. lra. Qed.
Lemma rsum_single n f j : (j < n)%nat -> (forall i, (i < n)%nat -> i <> j -> f i = 0) -> rsum n f = f j.
Proof.
  induction n as [|n IH]; cbn [rsum]; intros Hj H; [lia|]. destruct (Nat.eq_dec j n) as [->|N].
  - rewrite rsum_zero; [lra|]. intros; apply H; lia.
  - rewrite (H n) by lia. rewrite IH; [lra|lia|]. intros; apply H; lia.
Qed.
Lemma deriv_rsum n (f : R -> nat -> R) (g : nat -> R) x : (forall i, (i < n)%nat -> derivable_pt_lim (fun y => f y i) x (g i)) ->
  derivable_pt_lim (fun y => rsum n (f y)) x (rsum n g).
Proof.
  induction n as [|n IH]; cbn [rsum]; intros H; [apply derivable_pt_lim_const|].
  apply (derivable_pt_lim_plus (fun y => rsum n (f y)) (fun y => f y n)); [apply IH; intros; apply H; lia|apply H; lia].
Qed.
Lemma rsum_split n a f : (a <= n)%nat -> rsum n f = rsum a f + rsum (n - a) (fun i => f (a + i)%nat).
Proof.
  intros H. replace n with (a + (n - a))%nat at 1 by lia. generalize (n - a)%nat as b. clear H. induction b as [|b IH]; [rewrite Nat.add_0_r; cbn [rsum]; lra|].
  replace (a + S b)%nat with (S (a + b)) by lia. cbn [rsum]. rewrite IH. lra.
Qed.
