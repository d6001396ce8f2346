(** Proofs for Model/AnaNewton.v. *)
From Coq Require Import Reals Lra Lia List ZArith.
From Verif Require Import Base.PyBase Base.RSum Model.AnaSolver Model.AnaNewton Spec.AnaSolverSpec Spec.AnaNewtonSpec Proofs.RSumP Proofs.AnaSolverMainP.
Import ListNotations.
Local Open Scope R_scope.

Lemma rmax_lt m g d : rmax m g < d <-> forall i, (i < S m)%nat -> g i < d.
Proof.
  induction m as [|m IH]; cbn [rmax].
  - split; [intros H i Hi; replace i with 0%nat by lia; exact H|intros H; apply H; lia].
  - split.
    + intros H i Hi. destruct (Nat.eq_dec i (S m)) as [->|]; [eapply Rle_lt_trans; [apply Rmax_r|exact H]|].
      apply IH; [eapply Rle_lt_trans; [apply Rmax_l|exact H]|lia].
    + intros H. apply Rmax_lub_lt; [apply IH; intros; apply H; lia|apply H; lia].
Qed.
Lemma fold_max_le l : forall x, x <= fold_left Rmax l x /\ forall y, In y l -> y <= fold_left Rmax l x.
Proof.
  induction l as [|z l IH]; intros x; cbn [fold_left]; [split; [lra|intros y []]|]. destruct (IH (Rmax x z)) as [A B].
  pose proof (Rmax_l x z). pose proof (Rmax_r x z). split; [lra|]. intros y [<-|Hy]; [lra|apply B, Hy].
Qed.
Lemma fold_max_in l : forall x, fold_left Rmax l x = x \/ In (fold_left Rmax l x) l.
Proof.
  induction l as [|z l IH]; intros x; cbn [fold_left]; [left; reflexivity|]. destruct (IH (Rmax x z)) as [E|I]; [|right; right; exact I].
  rewrite E. unfold Rmax. destruct (Rle_dec x z); [right; left; reflexivity|left; reflexivity].
Qed.
Lemma lmax_ge l y : In y l -> y <= lmax l.
Proof. destruct l as [|x l]; [intros []|]. cbn [lmax]. destruct (fold_max_le l x) as [A B]. intros [<-|H]; [exact A|apply B, H]. Qed.
Lemma lmax_in l : l <> [] -> In (lmax l) l.
Proof. destruct l as [|x l]; [contradiction|]. intros _. cbn [lmax]. destruct (fold_max_in l x) as [E|I]; [left; symmetry; exact E|right; exact I]. Qed.
Lemma significant_spec x : significant x = true <-> large x.
Proof. unfold significant, large, significance_limit. destruct (Rlt_dec _ _); split; intros; try assumption; try reflexivity; try discriminate; contradiction. Qed.

Section S.
Variables (n : nat) (p inc : vec).
Let r := step_reduction n p inc.
Lemma red_cases : (r = 1 /\ forall i, (i < n)%nat -> large (p i) -> Rabs (inc i) <= Rabs (p i)) \/
  (0 < r < 1 /\ (forall i, (i < n)%nat -> large (p i) -> Rabs (r * inc i) <= Rabs (p i)) /\ exists i, (i < n)%nat /\ large (p i) /\ Rabs (r * inc i) = Rabs (p i)).
Proof.
  unfold r, step_reduction.
  destruct (existsb _ _) eqn:E.
  2: { left. split; [reflexivity|]. intros i Hi L. exfalso. assert (T : existsb (fun i => significant (p i)) (seq 0 n) = true); [|congruence].
       apply existsb_exists. exists i. split; [apply in_seq; lia|apply significant_spec, L]. }
  cbn zeta. set (M := lmax _).
  assert (G : forall i, (i < n)%nat -> large (p i) -> Rabs (inc i / p i) <= M).
  { intros i Hi L. apply lmax_ge. apply (in_map (fun i => Rabs (inc i / p i))). apply filter_In. split; [apply in_seq; lia|apply significant_spec, L]. }
  assert (P : forall i, large (p i) -> 0 < Rabs (p i)) by (intros i L; unfold large in L; lra).
  assert (Q : forall i, large (p i) -> Rabs (inc i / p i) * Rabs (p i) = Rabs (inc i)).
  { intros i L. specialize (P i L). rewrite <- Rabs_mult. f_equal. field. intros Z. rewrite Z, Rabs_R0 in P. lra. }
  destruct (Rlt_dec 1 M) as [H|H].
  - right. assert (0 < / M) by (apply Rinv_0_lt_compat; lra). assert (/ M < 1) by (rewrite <- Rinv_1; apply Rinv_lt_contravar; lra).
    split; [unfold Rdiv; lra|]. split.
    + intros i Hi L. rewrite Rabs_mult, (Rabs_pos_eq (1 / M)) by (unfold Rdiv; lra). rewrite <- (Q i L). specialize (G i Hi L). specialize (P i L).
      replace (1 / M * (Rabs (inc i / p i) * Rabs (p i))) with (/ M * Rabs (inc i / p i) * Rabs (p i)) by (field; lra).
      assert (/ M * Rabs (inc i / p i) <= 1) by (apply Rmult_le_reg_l with M; [lra|]; rewrite <- Rmult_assoc, Rinv_r by lra; lra). nra.
    + assert (I : In M (map (fun i => Rabs (inc i / p i)) (filter (fun i => significant (p i)) (seq 0 n)))).
      { apply lmax_in. apply existsb_exists in E. destruct E as (i & Hi & Hs). intros Z. apply map_eq_nil in Z.
        assert (In i (filter (fun i => significant (p i)) (seq 0 n))) as X by (apply filter_In; split; assumption). rewrite Z in X. exact X. }
      apply in_map_iff in I. destruct I as (i & EM & Hi). apply filter_In in Hi. destruct Hi as [Hi Hs]. apply in_seq in Hi. apply significant_spec in Hs.
      exists i. split; [lia|]. split; [exact Hs|]. rewrite Rabs_mult, (Rabs_pos_eq (1 / M)) by (unfold Rdiv; lra). rewrite <- (Q i Hs), EM. field. lra.
  - left. split; [reflexivity|]. intros i Hi L. rewrite <- (Q i L). specialize (G i Hi L). specialize (P i L). nra.
Qed.
Lemma red_range : 0 < r <= 1.
Proof. destruct red_cases as [[-> _]|[H _]]; lra. Qed.
Lemma red_cap i : (i < n)%nat -> large (p i) -> Rabs (r * inc i) <= Rabs (p i).
Proof. destruct red_cases as [[-> H]|[_ [H _]]]; intros Hi L; [rewrite Rmult_1_l|]; apply H; assumption. Qed.
Lemma red_full : (forall i, (i < n)%nat -> Rabs (r * inc i) < 1e-4) -> r = 1.
Proof. intros H. destruct red_cases as [[E _]|[_ [_ (i & Hi & L & E)]]]; [exact E|exfalso]. specialize (H i Hi). unfold large in L. lra. Qed.
End S.

Section L.
Variable pinv : nat -> mat -> option mat.
Variables n max_iter : nat.
Variable fJ : vec -> R -> vec * mat.
Variable alpha : R.
Variable start : vec.
Let it := iterate pinv n fJ alpha.
Let P := proposals it start.
Let call fuel := newton_call pinv n max_iter fJ alpha fuel start.
Let loop := newton_loop pinv n max_iter fJ alpha.

Lemma settled_dec k : (0 < n)%nat -> exists m, np_max_abs n (fun i => it (P (S k)) i - P (S k) i) = Ok m /\ (m < 1e-4 <-> settled n it start k).
Proof.
  intros Hn. destruct n as [|q] eqn:E; [lia|]. cbn [np_max_abs]. exists (rmax q (fun i => Rabs (it (P (S k)) i - P (S k) i))). split; [reflexivity|].
  rewrite rmax_lt. reflexivity.
Qed.
Lemma loop_step fuel k : (0 < n)%nat ->
  (settled n it start k \/ (max_iter < k)%nat -> loop (S fuel) k (P k) (it (P k)) = Some (if Nat.ltb max_iter (S k) then Raise RuntimeError else Ok (it (P (S k)), S k))) /\
  (~ settled n it start k -> (k <= max_iter)%nat -> loop (S fuel) k (P k) (it (P k)) = loop fuel (S k) (P (S k)) (it (P (S k)))).
Proof.
  intros Hn. destruct (settled_dec k Hn) as (m & Em & Hm). unfold loop. cbn [newton_loop].
  change (get_proposal (P k) (it (P k))) with (P (S k)). fold it. rewrite Em. cbn [bind].
  split.
  - intros [Hs|Hk].
    + destruct (Nat.ltb max_iter k); [reflexivity|]. destruct (Rlt_dec m 1e-4) as [|N]; [reflexivity|]. exfalso. apply N, Hm, Hs.
    + apply Nat.ltb_lt in Hk. rewrite Hk. reflexivity.
  - intros Ns Hk. replace (Nat.ltb max_iter k) with false by (symmetry; apply Nat.ltb_ge; lia). destruct (Rlt_dec m 1e-4) as [L|N]; [exfalso; apply Ns, Hm, L|reflexivity].
Qed.
Lemma call_reach k : (0 < n)%nat -> (k <= max_iter + 1)%nat -> (forall j, (j < k)%nat -> ~ settled n it start j) -> forall fuel, call (k + fuel) = loop fuel k (P k) (it (P k)).
Proof.
  intros Hn. induction k as [|k IH]; intros Hk Hj fuel; [reflexivity|].
  replace (S k + fuel)%nat with (k + S fuel)%nat by lia. rewrite IH; [|lia|intros; apply Hj; lia]. apply loop_step; [exact Hn|apply Hj; lia|lia].
Qed.
Lemma call_ok k : (0 < n)%nat -> (k < max_iter)%nat -> settled n it start k -> (forall j, (j < k)%nat -> ~ settled n it start j) ->
  forall fuel, (k < fuel)%nat -> call fuel = Some (Ok (it (P (S k)), S k)).
Proof.
  intros Hn Hk Hs Hj fuel Hf. replace fuel with (k + S (fuel - k - 1))%nat by lia. rewrite call_reach; [|exact Hn|lia|exact Hj].
  rewrite (proj1 (loop_step (fuel - k - 1) k Hn) (or_introl Hs)). replace (Nat.ltb max_iter (S k)) with false by (symmetry; apply Nat.ltb_ge; lia). reflexivity.
Qed.
Lemma call_fail : (0 < n)%nat -> (forall k, (k < max_iter)%nat -> ~ settled n it start k) -> forall fuel, (max_iter + 2 <= fuel)%nat -> call fuel = Some (Raise RuntimeError).
Proof.
  intros Hn Hj fuel Hf. replace fuel with (max_iter + S (fuel - max_iter - 1))%nat by lia. rewrite call_reach; [|exact Hn|lia|exact Hj].
  assert (T : forall k, (max_iter <= k)%nat -> (if Nat.ltb max_iter (S k) then @Raise (vec * nat) RuntimeError else Ok (it (P (S k)), S k)) = Raise RuntimeError).
  { intros k Hk. replace (Nat.ltb max_iter (S k)) with true by (symmetry; apply Nat.ltb_lt; lia). reflexivity. }
  destruct (settled_dec max_iter Hn) as (m & _ & Hm). destruct (Rlt_dec m 1e-4) as [L|N].
  - rewrite (proj1 (loop_step _ max_iter Hn) (or_introl (proj1 Hm L))), T by lia. reflexivity.
  - rewrite (proj2 (loop_step _ max_iter Hn)); [|intros Z; apply N, Hm, Z|lia]. replace (fuel - max_iter - 1)%nat with (S (fuel - max_iter - 2)) by lia.
    rewrite (proj1 (loop_step _ (S max_iter) Hn) (or_intror (Nat.lt_succ_diag_r _))), T by lia. reflexivity.
Qed.
Lemma call_empty : n = 0%nat -> forall fuel, (0 < fuel)%nat -> call fuel = Some (Raise ValueError).
Proof. intros -> [|fuel] Hf; [lia|]. unfold call, newton_call. cbn [newton_loop Nat.ltb np_max_abs bind]. destruct max_iter; reflexivity. Qed.
Lemma settled_or k : settled n it start k \/ ~ settled n it start k.
Proof.
  destruct (Nat.eq_dec n 0) as [E|E]; [left; intros i Hi; lia|].
  destruct (settled_dec k ltac:(lia)) as (m & _ & Hm). destruct (Rlt_dec m 1e-4) as [L|N]; [left; apply Hm, L|right; intros Z; apply N, Hm, Z].
Qed.
Lemma first_settled q : (exists k, (k < q)%nat /\ settled n it start k /\ forall j, (j < k)%nat -> ~ settled n it start j) \/ (forall k, (k < q)%nat -> ~ settled n it start k).
Proof.
  induction q as [|q [(k & Hk & X)|H]]; [right; intros; lia|left; exists k; split; [lia|exact X]|].
  destruct (settled_or q) as [Sx|Sx]; [left; exists q; split; [lia|]; split; [exact Sx|exact H]|].
  right. intros k Hk. destruct (Nat.eq_dec k q) as [->|]; [exact Sx|apply H; lia].
Qed.
Lemma call_inv fuel x c : call fuel = Some (Ok (x, c)) -> (0 < n)%nat /\ exists k, c = S k /\ (k < max_iter)%nat /\ settled n it start k /\ (forall j, (j < k)%nat -> ~ settled n it start j) /\ x = it (P (S k)).
Proof.
  intros H. destruct (Nat.eq_dec n 0) as [E|E].
  { destruct fuel as [|fuel]; [discriminate|]. rewrite (call_empty E (S fuel)) in H by lia. discriminate. }
  assert (Hn : (0 < n)%nat) by lia. split; [exact Hn|].
  destruct (first_settled (Nat.min fuel max_iter)) as [(k & Hk & Hs & Hj)|H'].
  - rewrite (call_ok k Hn ltac:(lia) Hs Hj fuel ltac:(lia)) in H. injection H as <- <-. exists k. repeat split; try assumption; lia.
  - exfalso. destruct (le_lt_dec (max_iter + 2) fuel) as [L|L].
    + rewrite (call_fail Hn) in H; [discriminate|intros; apply H'; lia|exact L].
    + destruct (le_lt_dec fuel max_iter) as [L'|L'].
      * replace fuel with (fuel + 0)%nat in H by lia. rewrite call_reach in H; [discriminate|exact Hn|lia|intros; apply H'; lia].
      * assert (fuel = max_iter + 1)%nat by lia. subst fuel. rewrite call_reach in H; [|exact Hn|lia|intros; apply H'; lia].
        destruct (settled_or max_iter) as [Sx|Sx].
        -- rewrite (proj1 (loop_step 0 max_iter Hn) (or_introl Sx)) in H. replace (Nat.ltb max_iter (S max_iter)) with true in H by (symmetry; apply Nat.ltb_lt; lia). discriminate.
        -- rewrite (proj2 (loop_step 0 max_iter Hn) Sx (Nat.le_refl _)) in H. discriminate.
Qed.
End L.

Lemma within_step pinv n fJ alpha x : let it := iterate pinv n fJ alpha in within n 1e-4 (it x) x ->
  let inc := increment pinv n (fst (fJ x alpha)) (snd (fJ x alpha)) in (forall i, it x i = x i + inc i) /\ forall i, (i < n)%nat -> Rabs (inc i) < 1e-4.
Proof.
  intros it H inc. assert (E : forall i, it x i = x i + step_reduction n x inc * inc i).
  { intros i. unfold it, iterate, inc. destruct (fJ x alpha) as [f J]. reflexivity. }
  assert (R1 : step_reduction n x inc = 1).
  { apply red_full. intros i Hi. specialize (H i Hi). rewrite E in H. replace (x i + step_reduction n x inc * inc i - x i) with (step_reduction n x inc * inc i) in H by ring. exact H. }
  split; [intros i; rewrite E, R1; ring|]. intros i Hi. specialize (H i Hi). rewrite E, R1 in H. replace (x i + 1 * inc i - x i) with (inc i) in H by ring. exact H.
Qed.
(** a full step solves the linearised equation *)
Lemma newton_equation pinv n f J Pm : pinv n J = Some Pm -> (forall m j, (m < n)%nat -> (j < n)%nat -> rsum n (fun i => J m i * Pm i j) = if Nat.eqb m j then 1 else 0) ->
  forall m, (m < n)%nat -> rsum n (fun i => J m i * increment pinv n f J i) = - f m.
Proof.
  intros E H m Hm. unfold increment. rewrite E.
  rewrite (rsum_ext _ _ (fun i => rsum n (fun j => - (J m i * Pm i j * f j)))).
  2: { intros i _. replace (J m i * - rsum n (fun j => Pm i j * f j)) with (- J m i * rsum n (fun j => Pm i j * f j)) by ring. rewrite <- rsum_scal. apply rsum_ext. intros; ring. }
  rewrite rsum_swap. rewrite (rsum_single _ _ m Hm).
  - rewrite (rsum_ext _ _ (fun i => J m i * Pm i m * - f m)) by (intros; ring). rewrite rsum_scal_r, (H m m Hm Hm), Nat.eqb_refl. ring.
  - intros j Hj N. rewrite (rsum_ext _ _ (fun i => J m i * Pm i j * - f j)) by (intros; ring). rewrite rsum_scal_r, (H m j Hm Hj). replace (Nat.eqb m j) with false by (symmetry; apply Nat.eqb_neq; lia). ring.
Qed.

Lemma call_stay pinv n max_iter fJ alpha start fuel : (0 < n)%nat -> (0 < max_iter)%nat -> (0 < fuel)%nat ->
  (forall i, increment pinv n (fst (fJ start alpha)) (snd (fJ start alpha)) i = 0) -> newton_call pinv n max_iter fJ alpha fuel start = Some (Ok (start, 1%nat)).
Proof.
  intros Hn Hm Hf H. set (it := iterate pinv n fJ alpha).
  assert (E : it start = start).
  { apply FunctionalExtensionality.functional_extensionality. intros i. unfold it, iterate. destruct (fJ start alpha) as [f J]. cbn [fst snd] in H. unfold iteration_function. rewrite H. ring. }
  assert (E1 : proposals it start 1 = start).
  { cbn [proposals]. apply FunctionalExtensionality.functional_extensionality. intros i. rewrite E. ring. }
  assert (Sx : settled n it start 0).
  { change (within n 1e-4 (it (proposals it start 1)) (proposals it start 1)). rewrite E1, E. intros i _. rewrite Rminus_eq_0, Rabs_R0. lra. }
  assert (Hj : forall j, (j < 0)%nat -> ~ settled n it start j) by (intros j Hj; lia).
  pose proof (call_ok pinv n max_iter fJ alpha start 0 Hn Hm Sx Hj fuel Hf) as X. rewrite X. change (Some (Ok (it (proposals it start 1), 1%nat)) = Some (Ok (start, 1%nat))). rewrite E1, E. reflexivity.
Qed.
