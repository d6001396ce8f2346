(** Reported quantities, dependence on alpha, and the number of singular values. *)
From Coq Require Import Reals Lra Lia List String Bool.
From Verif Require Import Base.PyBase Base.RSum Model.AnaSolver Spec.AnaSolverSpec Proofs.RSumP Proofs.AnaSolverP Proofs.AnaSolverOptP Proofs.AnaSolverMainP.
Import ListNotations.
Local Open Scope R_scope.

Lemma entropy_reported v u : sensible (v_setup v) -> entropy v (singular_to_realspace v u) u = entropy_of (v_setup v) (singular_to_realspace v u).
Proof.
  intros (H2 & Hi & HD & HE). unfold entropy, entropy_of, singular_to_realspace. destruct (s_off (v_setup v)).
  - unfold entropy_posneg, posneg. rewrite integral_dw, trapz_dw. apply rsum_ext. intros l Hl. f_equal. specialize (HD l Hl). unfold singular_to_realspace_offdiag. cbn zeta.
    set (D := s_model (v_setup v) l) in *. set (t := Vu v u l).
    replace (4 * D * D) with (4 * D ^ 2) by ring. rewrite pn_sqrt, pn_arcsinh by exact HD. pose proof (exp_pos t).
    replace ((D * exp t + D / exp t + (D * exp t - D / exp t)) / (2 * D)) with (exp t) by (field; lra). rewrite ln_exp. ring.
  - unfold entropy_pos, shannon. rewrite integral_dw, trapz_dw. apply rsum_ext. intros l Hl. f_equal. specialize (HD l Hl). unfold singular_to_realspace_diag.
    replace (s_model (v_setup v) l * exp (Vu v u l) / s_model (v_setup v) l) with (exp (Vu v u l)) by (field; lra). rewrite ln_exp. reflexivity.
Qed.
Lemma chi2_reported v A : chi2 v A = misfit (v_setup v) (s_K (v_setup v)) A.
Proof. unfold chi2, misfit. apply rsum_ext. intros k _. unfold fit_at. rewrite integral_trapz. reflexivity. Qed.
Lemma misfit_nonneg s Q B : sensible s -> 0 <= misfit s Q B.
Proof. intros (H2 & Hi & HD & HE). apply rsum_nonneg. intros k Hk. apply Rmult_le_pos; [apply HE, Hk|apply pow2_ge_0]. Qed.
Lemma sig_feat s l : 0 < s_model s l -> sig_of s l (featureless s l) = 0.
Proof.
  intros HD. unfold sig_of, featureless. destruct (s_off s).
  - unfold sig_pn. pose proof (pn_sqrt (s_model s l) 0 HD) as X. rewrite exp_0 in X. replace (s_model s l * 1 - s_model s l / 1) with 0 in X by field. rewrite X. ring_simplify. field.
  - unfold sig_pos. replace (s_model s l / s_model s l) with 1 by (field; lra). rewrite ln_1. ring.
Qed.
Lemma sig_nonpos s l x : 0 < s_model s l -> okf s x -> sig_of s l x <= 0 /\ (sig_of s l x = 0 -> x = featureless s l).
Proof.
  intros HD Hok. pose proof (sig_feat s l HD) as F. unfold sig_of, featureless, okf in *. destruct (s_off s).
  - assert (F' : sig_pn (s_model s l) (s_model s l * exp 0 - s_model s l / exp 0) = 0) by (rewrite exp_0; replace (s_model s l * 1 - s_model s l / 1) with 0 by field; exact F).
    pose proof (sig_pn_le (s_model s l) 0 x HD) as X. split; [lra|]. intros Z. destruct (Req_dec x 0) as [|N]; [assumption|exfalso].
    assert (N' : x <> s_model s l * exp 0 - s_model s l / exp 0) by (rewrite exp_0; intros Y; apply N; rewrite Y; field).
    pose proof (sig_pn_lt _ 0 x HD N'). lra.
  - assert (F' : sig_pos (s_model s l) (s_model s l * exp 0) = 0) by (rewrite exp_0, Rmult_1_r; exact F).
    pose proof (sig_pos_le (s_model s l) 0 x HD (Hok eq_refl)) as X. split; [lra|]. intros Z. destruct (Req_dec x (s_model s l)) as [|N]; [assumption|exfalso].
    assert (N' : x <> s_model s l * exp 0) by (rewrite exp_0; intros Y; apply N; rewrite Y; ring).
    pose proof (sig_pos_lt _ 0 x HD (Hok eq_refl) N'). lra.
Qed.
Lemma entropy_nonpos s B : sensible s -> admissible s B -> entropy_of s B <= 0 /\ (entropy_of s B = 0 <-> same (s_nw s) B (featureless s)).
Proof.
  intros (H2 & Hi & HD & HE) HB. rewrite entropy_ofE, integral_dw.
  assert (P : forall l, (l < s_nw s)%nat -> dw_of (s_nw s) (s_w s) l * sig_of s l (B l) <= 0).
  { intros l Hl. destruct (sig_nonpos s l (B l) (HD l Hl) (adm_ok s B HB l Hl)) as [X _]. pose proof (dw_pos _ _ l H2 Hi Hl). nra. }
  split; [apply rsum_nonpos, P|]. split.
  - intros Z l Hl. assert (Z' : rsum (s_nw s) (fun l => - 1 * (dw_of (s_nw s) (s_w s) l * sig_of s l (B l))) = 0) by (rewrite rsum_scal; lra).
    assert (P' : forall i, (i < s_nw s)%nat -> 0 <= - 1 * (dw_of (s_nw s) (s_w s) i * sig_of s i (B i))) by (intros i Hi'; specialize (P i Hi'); lra).
    pose proof (rsum_zero_inv _ _ P' Z' l Hl) as X. cbv beta in X.
    pose proof (dw_pos _ _ l H2 Hi Hl). apply (sig_nonpos s l (B l) (HD l Hl) (adm_ok s B HB l Hl)). nra.
  - intros S. apply rsum_zero. intros l Hl. rewrite (S l Hl), sig_feat by (apply HD, Hl). ring.
Qed.
Lemma objective_nonpos s Q alpha B : sensible s -> 0 < alpha -> admissible s B -> objective s (entropy_of s) Q alpha B <= 0.
Proof. intros OK HA HB. pose proof (misfit_nonneg s Q B OK). destruct (entropy_nonpos s B OK HB) as [X _]. unfold objective. nra. Qed.
Lemma featureless_adm s : sensible s -> admissible s (featureless s).
Proof. intros (H2 & Hi & HD & HE) F l Hl. unfold featureless. rewrite F. apply Rlt_le, HD, Hl. Qed.
Lemma reported newton lm blur v opt alpha ustart r : sensible (v_setup v) -> 0 < alpha -> maxent_optimization newton lm blur v opt alpha ustart = Ok r ->
  let s := v_setup v in let A := singular_to_realspace v (r_u r) in
  r_alpha r = alpha /\ (blur = None -> r_A r = A /\ r_blur r = 0) /\ r_norm r = integral (s_nw s) (s_w s) A /\
  r_entropy r = entropy_of s A /\ r_chi2 r = misfit s (s_K s) A /\ r_Q r = objective s (entropy_of s) (s_K s) alpha A /\ r_entropy r <= 0 /\ 0 <= r_chi2 r /\ r_Q r <= 0.
Proof.
  intros OK HA H s A. unfold maxent_optimization in H.
  destruct (if String.eqb opt "newton" then _ else _) as [u|e] eqn:Eu; [|discriminate].
  cbn [bind] in H. destruct (match blur with None => _ | Some _ => _ end) as [Ab|e] eqn:Eb; [|discriminate]. cbn [bind] in H. injection H as <-. cbn [r_u r_alpha r_A r_blur r_norm r_entropy r_chi2 r_Q] in *.
  split; [reflexivity|]. split. { intros ->. injection Eb as <-. split; reflexivity. }
  split; [symmetry; apply integral_trapz|]. rewrite (entropy_reported v u OK), chi2_reported. fold s. fold A. split; [reflexivity|]. split; [reflexivity|].
  assert (HB : admissible s A) by (apply A_admissible; exact OK).
  assert (EQ : alpha * entropy_of s A - 1 / 2 * misfit s (s_K s) A = objective s (entropy_of s) (s_K s) alpha A) by (unfold objective; field).
  rewrite EQ. split; [reflexivity|]. split; [apply entropy_nonpos; assumption|]. split; [apply misfit_nonneg; exact OK|]. apply objective_nonpos; assumption.
Qed.

Lemma alpha_monotone v a1 a2 u1 u2 : sensible (v_setup v) -> 0 < a2 -> a2 < a1 -> root_of (n_sv v) (compute_f_J v) a1 u1 -> root_of (n_sv v) (compute_f_J v) a2 u2 ->
  let s := v_setup v in let A1 := singular_to_realspace v u1 in let A2 := singular_to_realspace v u2 in
  misfit s (kept_kernel v) A2 <= misfit s (kept_kernel v) A1 /\ entropy_of s A2 <= entropy_of s A1.
Proof.
  intros OK H0 H12 R1 R2 s A1 A2.
  destruct (optimum v a1 u1 OK ltac:(lra) R1 A2 (A_admissible v u2 OK)) as [X _]. destruct (optimum v a2 u2 OK H0 R2 A1 (A_admissible v u1 OK)) as [Y _].
  unfold objective in X, Y. fold s in X, Y. fold A1 in X, Y. fold A2 in X, Y. split; [|nra]. nra.
Qed.
Lemma better_than_model v alpha u : sensible (v_setup v) -> 0 < alpha -> root_of (n_sv v) (compute_f_J v) alpha u ->
  misfit (v_setup v) (kept_kernel v) (singular_to_realspace v u) <= misfit (v_setup v) (kept_kernel v) (featureless (v_setup v)).
Proof.
  intros OK HA HR. destruct (optimum v alpha u OK HA HR _ (featureless_adm _ OK)) as [X _]. unfold objective in X.
  destruct (entropy_nonpos _ _ OK (A_admissible v u OK)) as [Y _].
  destruct (entropy_nonpos _ _ OK (featureless_adm _ OK)) as [_ [_ Z]]. rewrite Z in X by (intros l _; reflexivity). nra.
Qed.

(** singular values *)
Lemma above_spec x : above x = true <-> 1e-10 < x.
Proof. unfold above. destruct (Rlt_dec 1e-10 x); split; intros; try assumption; try reflexivity; try discriminate; contradiction. Qed.
Lemma last_above_cases m Sg : (forall i j, (i <= j)%nat -> (j < m)%nat -> Sg j <= Sg i) ->
  match last_above m Sg with
  | Ok n => (n < m)%nat /\ (forall i, (i < m)%nat -> 1e-10 < Sg i <-> (i <= n)%nat)
  | Raise e => e = IndexError /\ forall i, (i < m)%nat -> Sg i <= 1e-10
  end.
Proof.
  intros Hd. unfold last_above. induction m as [|m IH].
  - cbn. split; [reflexivity|intros; lia].
  - rewrite seq_S, filter_app. cbn [plus filter]. destruct (above (Sg m)) eqn:Em.
    + rewrite rev_app_distr. cbn [rev app]. pose proof (proj1 (above_spec (Sg m)) Em) as Em'. split; [lia|]. intros i Hi. split; intros; [lia|]. pose proof (Hd i m ltac:(lia) ltac:(lia)). lra.
    + rewrite app_nil_r. assert (NE : ~ 1e-10 < Sg m) by (intros Z; apply above_spec in Z; congruence).
      specialize (IH (fun i j Hij Hj => Hd i j Hij (Nat.lt_lt_succ_r _ _ Hj))). destruct (rev (filter _ (seq 0 m))) as [|i l].
      * destruct IH as [_ IH]. split; [reflexivity|]. intros i Hi. destruct (Nat.eq_dec i m) as [->|]; [lra|apply IH; lia].
      * destruct IH as [Hi IH]. split; [lia|]. intros j Hj. destruct (Nat.eq_dec j m) as [->|]; [split; intros; [lra|lia]|apply IH; lia].
Qed.
Lemma init_solver svd s v : solver_init svd s = Ok v ->
  let '(U, Sg, Vt) := svd (s_niw s) (s_nw s) (s_K s) in
  v_setup v = s /\ v_U v = U /\ v_Xi v = Sg /\ v_V v = (fun l m => Vt m l) /\ last_above (Nat.min (s_nw s) (s_niw s)) Sg = Ok (n_sv v).
Proof.
  unfold solver_init. destruct (svd _ _ _) as [[U Sg] Vt]. destruct (last_above _ _) as [n|e] eqn:E; [|discriminate]. cbn [bind]. intros H. injection H as <-. cbn. repeat split.
Qed.

(** the last significant direction is ignored *)
Lemma shift_data_k s c U j k : (k < s_niw s)%nat -> s_data (shift_data s c U j) k = s_data s k + c * U k j.
Proof.
  unfold s_data, s_niw, shift_data. cbn [s_fermi s_nim s_data_c]. destruct (s_fermi s).
  - intros Hk. destruct (Nat.ltb_spec k (s_nim s)); cbn [fst snd]; [reflexivity|]. replace (s_nim s + (k - s_nim s))%nat with k by lia. reflexivity.
  - intros _. reflexivity.
Qed.
Lemma ignored s c n U Xi V e j alpha u m : (forall k, (k < s_niw s)%nat -> s_E s k = e) ->
  rsum (s_niw s) (fun k => U k m * U k j) = 0 ->
  fst (compute_f_J (Solver (shift_data s c U j) n U Xi V) u alpha) m = fst (compute_f_J (Solver s n U Xi V) u alpha) m.
Proof.
  intros He Ho.
  assert (X : Evi (Solver (shift_data s c U j) n U Xi V) m = Evi (Solver s n U Xi V) m).
  { unfold Evi. cbn [v_setup v_U v_Xi]. change (s_niw (shift_data s c U j)) with (s_niw s). change (s_E (shift_data s c U j)) with (s_E s).
    rewrite (rsum_ext _ _ (fun k => Xi m * U k m * s_E s k * s_data s k + Xi m * e * c * (U k m * U k j))).
    2: { intros k Hk. rewrite shift_data_k by exact Hk. rewrite (He k Hk). ring. }
    rewrite rsum_plus, rsum_scal, Ho. ring. }
  unfold compute_f_J. cbn [v_setup]. change (s_off (shift_data s c U j)) with (s_off s).
  destruct (s_off s); cbn [compute_f_J_offdiag compute_f_J_diag fst]; rewrite X; reflexivity.
Qed.
