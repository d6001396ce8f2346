(** Proofs for Model/AnaSolver.v. *)
From Coq Require Import Reals Lra Lia List Permutation.
From Verif Require Import Base.PyBase Base.RSum Model.AnaSolver Spec.AnaSolverSpec Proofs.RSumP.
Import ListNotations.
Local Open Scope R_scope.

Definition dwR (m : nat) (x : vec) (i : nat) : R := if Nat.ltb i m then (x (S i) - x i) / 2 else 0.
Definition dwL (x : vec) (i : nat) : R := match i with O => 0 | S j => (x i - x j) / 2 end.
Lemma dw_split m x i : (i < S m)%nat -> dw_of (S m) x i = dwR m x i + dwL x i.
Proof.
  intros H. unfold dw_of, edge, dwR, dwL. change (Nat.eqb (S i) 0) with false. cbn iota.
  destruct (Nat.ltb_spec i m) as [L|L].
  - replace (Nat.eqb (S i) (S m)) with false by (symmetry; apply Nat.eqb_neq; lia). replace (S i - 1)%nat with i by lia.
    destruct i as [|j]; [cbn; lra|]. change (Nat.eqb (S j) 0) with false. cbn iota.
    replace (Nat.eqb (S j) (S m)) with false by (symmetry; apply Nat.eqb_neq; lia). replace (S j - 1)%nat with j by lia. lra.
  - assert (i = m) by lia. subst i. rewrite Nat.eqb_refl. replace (S m - 1)%nat with m by lia.
    destruct m as [|j]; [cbn; lra|]. change (Nat.eqb (S j) 0) with false. cbn iota.
    replace (Nat.eqb (S j) (S (S j))) with false by (symmetry; apply Nat.eqb_neq; lia). replace (S j - 1)%nat with j by lia. lra.
Qed.
Lemma trapz_dw n x y : trapz n y x = rsum n (fun i => dw_of n x i * y i).
Proof.
  destruct n as [|m]; [reflexivity|]. unfold trapz. replace (S m - 1)%nat with m by lia.
  rewrite (rsum_ext (S m) _ (fun i => dwR m x i * y i + dwL x i * y i)) by (intros i Hi; rewrite dw_split by exact Hi; lra).
  rewrite rsum_plus. rewrite (rsum_S_first m (fun i => dwL x i * y i)). cbn [dwL].
  cbn [rsum]. replace (dwR m x m) with 0 by (unfold dwR; rewrite Nat.ltb_irrefl; reflexivity).
  rewrite (rsum_ext m (fun i => dwR m x i * y i) (fun i => (x (S i) - x i) / 2 * y i)) by (intros i Hi; unfold dwR; apply Nat.ltb_lt in Hi; rewrite Hi; reflexivity).
  rewrite Rmult_0_l, Rplus_0_r, Rmult_0_l, Rplus_0_l. rewrite <- rsum_plus. apply rsum_ext. intros i _. lra.
Qed.
Lemma integral_trapz n x y : integral n x y = trapz n y x.
Proof. unfold integral, trapz. apply rsum_ext. intros i _. lra. Qed.
Lemma integral_dw n x y : integral n x y = rsum n (fun i => dw_of n x i * y i).
Proof. rewrite integral_trapz. apply trapz_dw. Qed.
Lemma dw_pos n x i : (2 <= n)%nat -> increasing n x -> (i < n)%nat -> 0 < dw_of n x i.
Proof.
  intros H I Hi. destruct n as [|m]; [lia|]. rewrite dw_split by exact Hi. unfold dwR, dwL.
  destruct (Nat.ltb_spec i m) as [L|L].
  - assert (x i < x (S i)) by (apply I; lia). destruct i as [|j]; [lra|]. assert (x j < x (S j)) by (apply I; lia). lra.
  - destruct i as [|j]; [lia|]. assert (x j < x (S j)) by (apply I; lia). lra.
Qed.
Lemma telescope m x : rsum m (fun i => x (S i) - x i) = x m - x 0%nat.
Proof. induction m as [|m IH]; cbn [rsum]; [lra|]. rewrite IH. lra. Qed.
Lemma dw_total n x : (1 <= n)%nat -> rsum n (dw_of n x) = x (n - 1)%nat - x 0%nat.
Proof.
  intros H. rewrite (rsum_ext _ _ (fun i => dw_of n x i * 1)) by (intros; lra). rewrite <- (trapz_dw n x (fun _ => 1)). unfold trapz.
  rewrite (rsum_ext _ _ (fun i => x (S i) - x i)) by (intros; lra). apply telescope.
Qed.

(** derivative of the exponential of a linear function *)
Lemma deriv_Vu v u i l : (i < n_sv v)%nat -> derivable_pt_lim (fun x => Vu v (set_at u i x) l) (u i) (v_V v l i).
Proof.
  intros Hi. unfold Vu.
  replace (v_V v l i) with (rsum (n_sv v) (fun m => if Nat.eqb m i then v_V v l i else 0)).
  2: { rewrite (rsum_single _ _ i Hi); [rewrite Nat.eqb_refl; reflexivity|]. intros j _ Hj. apply Nat.eqb_neq in Hj. rewrite Hj. reflexivity. }
  apply (deriv_rsum (n_sv v) (fun x m => v_V v l m * set_at u i x m)). intros m _. unfold set_at. destruct (Nat.eqb_spec m i) as [->|N].
  - pose proof (derivable_pt_lim_scal (fun x => x) (v_V v l i) (u i) 1 (derivable_pt_lim_id (u i))) as H. rewrite Rmult_1_r in H. exact H.
  - apply derivable_pt_lim_const.
Qed.
Lemma set_at_self u i j : set_at u i (u i) j = u j.
Proof. unfold set_at. destruct (Nat.eqb_spec j i) as [->|]; reflexivity. Qed.
Lemma Vu_ext v u u' l : (forall m, (m < n_sv v)%nat -> u m = u' m) -> Vu v u l = Vu v u' l.
Proof. intros H. unfold Vu. apply rsum_ext. intros m Hm. rewrite H by exact Hm. reflexivity. Qed.
Lemma deriv_exp_Vu v u i l : (i < n_sv v)%nat -> derivable_pt_lim (fun x => exp (Vu v (set_at u i x) l)) (u i) (exp (Vu v u l) * v_V v l i).
Proof.
  intros Hi. replace (Vu v u l) with (Vu v (set_at u i (u i)) l) by (apply Vu_ext; intros; apply set_at_self).
  apply (derivable_pt_lim_comp (fun x => Vu v (set_at u i x) l) exp); [apply deriv_Vu; exact Hi|apply derivable_pt_lim_exp].
Qed.
Lemma deriv_lin alpha u i m : derivable_pt_lim (fun x => alpha * set_at u i x m) (u i) (alpha * eye m i).
Proof.
  unfold set_at, eye. destruct (Nat.eqb m i); [exact (derivable_pt_lim_scal (fun x => x) alpha (u i) 1 (derivable_pt_lim_id (u i)))|].
  rewrite Rmult_0_r. apply derivable_pt_lim_const.
Qed.
Lemma deriv_shift f x l c : derivable_pt_lim f x l -> derivable_pt_lim (fun y => f y - c) x l.
Proof. intros H. replace l with (l - 0) by lra. apply (derivable_pt_lim_minus f (fun _ => c)); [exact H|apply derivable_pt_lim_const]. Qed.

Lemma jac_diag v u alpha m i : (i < n_sv v)%nat ->
  derivable_pt_lim (fun x => fst (compute_f_J_diag v (set_at u i x) alpha) m) (u i) (snd (compute_f_J_diag v u alpha) m i).
Proof.
  intros Hi. cbn [compute_f_J_diag fst snd]. apply deriv_shift.
  apply (derivable_pt_lim_plus (fun x => alpha * set_at u i x m)
           (fun x => rsum (s_nw (v_setup v)) (fun l => W2 v m l * exp (Vu v (set_at u i x) l)))); [apply deriv_lin|].
  apply (deriv_rsum _ (fun x l => W2 v m l * exp (Vu v (set_at u i x) l))). intros l _. unfold W3.
  replace (W2 v m l * v_V v l i * exp (Vu v u l)) with (W2 v m l * (exp (Vu v u l) * v_V v l i)) by lra.
  apply (derivable_pt_lim_scal (fun x => exp (Vu v (set_at u i x) l))). apply deriv_exp_Vu. exact Hi.
Qed.
Lemma jac_off v u alpha m i : (i < n_sv v)%nat ->
  derivable_pt_lim (fun x => fst (compute_f_J_offdiag v (set_at u i x) alpha) m) (u i) (snd (compute_f_J_offdiag v u alpha) m i).
Proof.
  intros Hi. cbn [compute_f_J_offdiag fst snd]. apply deriv_shift.
  apply (derivable_pt_lim_plus (fun x => alpha * set_at u i x m)
           (fun x => rsum (s_nw (v_setup v)) (fun l => M2 v m l * (s_model (v_setup v) l * exp (Vu v (set_at u i x) l) - s_model (v_setup v) l / exp (Vu v (set_at u i x) l))))); [apply deriv_lin|].
  apply (deriv_rsum _ (fun x l => M2 v m l * (s_model (v_setup v) l * exp (Vu v (set_at u i x) l) - s_model (v_setup v) l / exp (Vu v (set_at u i x) l)))).
  intros l _. unfold M3. set (D := s_model (v_setup v) l). set (e := exp (Vu v u l)). assert (P : 0 < e) by apply exp_pos.
  replace (M2 v m l * v_V v l i * (D * e + D / e)) with (M2 v m l * (D * (e * v_V v l i) - D * (/ e * - v_V v l i))) by (field; lra).
  apply (derivable_pt_lim_scal (fun x => D * exp (Vu v (set_at u i x) l) - D / exp (Vu v (set_at u i x) l))).
  apply (derivable_pt_lim_minus (fun x => D * exp (Vu v (set_at u i x) l)) (fun x => D / exp (Vu v (set_at u i x) l))).
  - apply (derivable_pt_lim_scal (fun x => exp (Vu v (set_at u i x) l))). apply deriv_exp_Vu. exact Hi.
  - unfold Rdiv. apply (derivable_pt_lim_scal (fun x => / exp (Vu v (set_at u i x) l))).
    unfold e. rewrite <- exp_Ropp. replace (Vu v u l) with (Vu v (set_at u i (u i)) l) by (apply Vu_ext; intros; apply set_at_self).
    assert (X : derivable_pt_lim (fun x => exp (- Vu v (set_at u i x) l)) (u i) (exp (- Vu v (set_at u i (u i)) l) * - v_V v l i)).
    { apply (derivable_pt_lim_comp (fun x => - Vu v (set_at u i x) l) exp); [apply (derivable_pt_lim_opp (fun x => Vu v (set_at u i x) l)); apply deriv_Vu; exact Hi|apply derivable_pt_lim_exp]. }
    intros eps Heps. destruct (X eps Heps) as [d Hd]. exists d. intros h Hh Hd'. specialize (Hd h Hh Hd'). rewrite <- !exp_Ropp. exact Hd.
Qed.
