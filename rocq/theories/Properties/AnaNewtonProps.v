(** C106: the root finder of the maximum-entropy solver. *)
From Coq Require Import Reals Lra Lia List ZArith.
From Verif Require Import Base.PyBase Base.RSum Model.AnaSolver Model.AnaNewton Spec.AnaSolverSpec Spec.AnaNewtonSpec Proofs.RSumP Proofs.AnaSolverMainP Proofs.AnaSolverExP Proofs.AnaNewtonP.
Import ListNotations.
Local Open Scope R_scope.

Lemma cancel_l (a b : R) : a + b - a = b. Proof. ring. Qed.
(** One step goes along the Newton increment, by a positive fraction of it, and changes no component above the limit by more than its own size;
    it is shortened only if the full step would do that. *)
Theorem C106_step pinv n p f J : exists r, 0 < r <= 1 /\ (forall i, iteration_function pinv n p f J i = p i + r * increment pinv n f J i) /\
  (forall i, (i < n)%nat -> large (p i) -> Rabs (iteration_function pinv n p f J i - p i) <= Rabs (p i)) /\
  ((forall i, (i < n)%nat -> large (p i) -> Rabs (increment pinv n f J i) <= Rabs (p i)) -> r = 1).
Proof.
  set (inc := increment pinv n f J). exists (step_reduction n p inc). split; [apply red_range|]. split; [reflexivity|]. split.
  - intros i Hi L. replace (iteration_function pinv n p f J i - p i) with (step_reduction n p inc * inc i) by (unfold iteration_function; fold inc; ring). apply red_cap; assumption.
  - intros H. destruct (red_cases n p inc) as [[E _]|[R [_ (i & Hi & L & E)]]]; [exact E|exfalso].
    specialize (H i Hi L). rewrite Rabs_mult, (Rabs_pos_eq (step_reduction n p inc)) in E by lra. unfold large in L. pose proof (Rabs_pos (inc i)). nra.
Qed.
Print Assumptions C106_step.

(** Every call ends: with a result exactly if a step becomes small within the permitted number of iterations, else with an error; the answer does not
    depend on how long one waits beyond that, and the number of function evaluations is reported.  Without any variable it raises. *)
Theorem C106_ends pinv n max_iter fJ alpha start : let it := iterate pinv n fJ alpha in
  ((0 < n)%nat -> forall k, (k < max_iter)%nat -> settled n it start k -> (forall j, (j < k)%nat -> ~ settled n it start j) ->
     forall fuel, (k < fuel)%nat -> newton_call pinv n max_iter fJ alpha fuel start = Some (Ok (it (proposals it start (S k)), S k))) /\
  ((0 < n)%nat -> (forall k, (k < max_iter)%nat -> ~ settled n it start k) ->
     forall fuel, (max_iter + 2 <= fuel)%nat -> newton_call pinv n max_iter fJ alpha fuel start = Some (Raise RuntimeError)) /\
  (n = 0%nat -> forall fuel, (0 < fuel)%nat -> newton_call pinv n max_iter fJ alpha fuel start = Some (Raise ValueError)) /\
  (forall fuel, (max_iter + 2 <= fuel)%nat -> newton_call pinv n max_iter fJ alpha fuel start <> None).
Proof.
  intros it. assert (C1 := fun Hn k Hk Hs Hj fuel Hf => call_ok pinv n max_iter fJ alpha start k Hn Hk Hs Hj fuel Hf).
  split; [exact C1|]. split; [apply call_fail|]. split; [apply call_empty|].
  intros fuel Hf. destruct (Nat.eq_dec n 0) as [E|E]; [rewrite (call_empty pinv n max_iter fJ alpha start E fuel) by lia; discriminate|].
  assert (Hn : (0 < n)%nat) by lia. destruct (first_settled pinv n max_iter fJ alpha start max_iter) as [(k & Hk & Hs & Hj)|H].
  - rewrite (C1 Hn k Hk Hs Hj fuel ltac:(lia)). discriminate.
  - rewrite (call_fail pinv n max_iter fJ alpha start Hn H fuel Hf). discriminate.
Qed.
Print Assumptions C106_ends.

(** What is returned is a full Newton step away from the last proposal, no component moved by 1e-4 or more, and that step solves the linearised equation. *)
Theorem C106_result pinv n max_iter fJ alpha start fuel x c :
  (forall y, exists P, pinv n (snd (fJ y alpha)) = Some P /\ pinv_right n (snd (fJ y alpha)) P) ->
  (forall y z, (forall m, (m < n)%nat -> rsum n (fun i => snd (fJ y alpha) m i * z i) = 0) -> forall i, (i < n)%nat -> z i = 0) ->
  newton_call pinv n max_iter fJ alpha fuel start = Some (Ok (x, c)) ->
  (1 <= c <= max_iter)%nat /\ exists y, within n 1e-4 x y /\ forall m, (m < n)%nat -> fst (fJ y alpha) m + rsum n (fun i => snd (fJ y alpha) m i * (x i - y i)) = 0.
Proof.
  intros Hp Hinj H. destruct (call_inv _ _ _ _ _ _ _ _ _ H) as (Hn & k & -> & Hk & Hs & Hj & ->). split; [lia|].
  set (it := iterate pinv n fJ alpha) in *. remember (proposals it start (S k)) as y eqn:Ey. exists y.
  assert (W : within n 1e-4 (it y) y) by (rewrite Ey; exact Hs). split; [exact W|].
  intros m Hm. destruct (within_step pinv n fJ alpha y W) as [E _]. fold it in E.
  rewrite (rsum_ext _ _ (fun i => snd (fJ y alpha) m i * increment pinv n (fst (fJ y alpha)) (snd (fJ y alpha)) i)) by (intros i _; rewrite E; apply f_equal2; [reflexivity|]; match goal with |- ?a + ?b - ?a = _ => exact (cancel_l a b) end).
  destruct (Hp y) as (P & EP & HP). rewrite (newton_equation pinv n _ _ P EP (HP (Hinj y)) m Hm). ring.
Qed.
Print Assumptions C106_result.

(** Started at a root it returns that root at once. *)
Theorem C106_root_kept pinv n max_iter fJ alpha start fuel : (0 < n)%nat -> (0 < max_iter)%nat -> (0 < fuel)%nat ->
  root_of n fJ alpha start -> newton_call pinv n max_iter fJ alpha fuel start = Some (Ok (start, 1%nat)).
Proof.
  intros Hn Hm Hf H. apply call_stay; try assumption. intros i. unfold increment. destruct (pinv _ _); [|reflexivity].
  rewrite rsum_zero; [ring|]. intros j Hj. match goal with |- ?a * _ = 0 => transitivity (a * 0); [apply f_equal2; [reflexivity|exact (H j Hj)]|apply Rmult_0_r] end.
Qed.
Print Assumptions C106_root_kept.

(** For the maximum-entropy functions of C105 the assumption on the Jacobian always holds, and a proposal that is returned unchanged is the root. *)
Theorem C106_maxent pinv v max_iter alpha start fuel x c : sensible (v_setup v) -> 0 < alpha ->
  (forall y, exists P, pinv (n_sv v) (snd (compute_f_J v y alpha)) = Some P /\ pinv_right (n_sv v) (snd (compute_f_J v y alpha)) P) ->
  newton_call pinv (n_sv v) max_iter (compute_f_J v) alpha fuel start = Some (Ok (x, c)) ->
  exists y, within (n_sv v) 1e-4 x y /\
    (forall m, (m < n_sv v)%nat -> fst (compute_f_J v y alpha) m + rsum (n_sv v) (fun i => snd (compute_f_J v y alpha) m i * (x i - y i)) = 0) /\
    (same (n_sv v) x y -> root_of (n_sv v) (compute_f_J v) alpha y).
Proof.
  intros OK HA Hp H.
  assert (Hinj : forall y z, (forall m, (m < n_sv v)%nat -> rsum (n_sv v) (fun i => snd (compute_f_J v y alpha) m i * z i) = 0) -> forall i, (i < n_sv v)%nat -> z i = 0) by (intros y z; apply jac_injective; assumption).
  destruct (C106_result pinv (n_sv v) max_iter (compute_f_J v) alpha start fuel x c Hp Hinj H) as (_ & y & W & E). exists y. split; [exact W|]. split; [exact E|].
  intros Sx m Hm. specialize (E m Hm). rewrite rsum_zero in E; [rewrite Rplus_0_r in E; exact E|]. intros i Hi. rewrite (Sx i Hi). rewrite Rminus_eq_0. apply Rmult_0_r.
Qed.
Print Assumptions C106_maxent.

(** Refuted: what is returned is always (nearly) a root.  If the pseudo-inverse cannot be computed the step is set to zero, which passes for convergence. *)
Theorem C106_linalg_refuted pinv n max_iter fJ alpha start fuel : (0 < n)%nat -> (0 < max_iter)%nat -> (0 < fuel)%nat ->
  pinv n (snd (fJ start alpha)) = None -> newton_call pinv n max_iter fJ alpha fuel start = Some (Ok (start, 1%nat)).
Proof. intros Hn Hm Hf H. apply call_stay; try assumption. intros i. unfold increment. rewrite H. reflexivity. Qed.
Print Assumptions C106_linalg_refuted.

(** The root finder as the solver uses it: refuses a problem whose only significant singular value was dropped. *)
Theorem C106_no_variables pinv fJ ustart alpha : newton pinv 0 fJ ustart alpha = Raise ValueError.
Proof. unfold newton. rewrite (call_empty pinv 0 default_max_iter fJ alpha ustart eq_refl) by lia. reflexivity. Qed.
Print Assumptions C106_no_variables.
Theorem C106_used pinv n fJ ustart alpha x : newton pinv n fJ ustart alpha = Ok x ->
  exists c, newton_call pinv n default_max_iter fJ alpha (default_max_iter + 2) ustart = Some (Ok (x, c)) /\ (c <= default_max_iter)%nat.
Proof.
  unfold newton. intros H. destruct (newton_call _ _ _ _ _ _ _) as [[[y c]|e]|] eqn:E; try discriminate. injection H as <-. exists c. split; [reflexivity|].
  destruct (call_inv _ _ _ _ _ _ _ _ _ E) as (_ & k & -> & Hk & _). lia.
Qed.
Print Assumptions C106_used.

(** the hypotheses are met by the example of C105: one variable, Jacobian alpha + 2 exp u *)
Definition ex_pinv (n : nat) (J : mat) : option mat := Some (fun i j => if Nat.eqb i j then / J i j else 0).
Example C106_ex : let v := ex_solver (1 * 1 / 2 + exp 1) 7 in
  (forall y, exists P, ex_pinv (n_sv v) (snd (compute_f_J v y 1)) = Some P /\ pinv_right (n_sv v) (snd (compute_f_J v y 1)) P) /\
  newton_call ex_pinv (n_sv v) default_max_iter (compute_f_J v) 1 2 (fun _ => 1) = Some (Ok ((fun _ => 1), 1%nat)).
Proof.
  intros v. split.
  - intros y. exists (fun i j => if Nat.eqb i j then / snd (compute_f_J v y 1) i j else 0). split; [reflexivity|].
    intros Hinj m j Hm Hj. cbn [n_sv v ex_solver] in *. assert (m = 0)%nat by lia. assert (j = 0)%nat by lia. subst m j. cbn [rsum Nat.eqb].
    rewrite Rplus_0_l. apply Rinv_r. intros Z. specialize (Hinj (fun _ => 1)). assert (1 = 0); [|lra]. apply (Hinj) with 0%nat; [|lia].
    intros m Hm'. assert (m = 0)%nat by lia. subst m. cbn [rsum]. rewrite Z. ring.
  - apply C106_root_kept; [cbn; lia|unfold default_max_iter; lia|lia|]. apply ex_root.
Qed.
