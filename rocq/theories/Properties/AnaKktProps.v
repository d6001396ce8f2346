(** C109: Kramers-Kronig transformation. *)
From Coq Require Import Reals Lra Lia List String Bool.
From Verif Require Import Base.PyBase Base.RSum Model.AnaSolver Model.AnaKernel Model.AnaProblem Spec.AnaSolverSpec Spec.AnaProblemSpec Proofs.RSumP Proofs.AnaKernelBoseP Proofs.AnaSolverP Proofs.AnaProblemP.
Import ListNotations.
Local Open Scope R_scope.

(** For a general spectrum the imaginary part is minus pi times the spectrum and the real part the integral of A(x) / (w - x), the point itself left out. *)
Theorem C109_general n w A kind : kind = "fermionic"%string \/ kind = "general"%string -> distinct n w ->
  exists g, kkt (Green n w A kind) = Ok g /\ forall b, (b < n)%nat -> g b = (Some (hilbert n w A b), - PI * A b).
Proof.
  intros Hk Hd. eexists. split; [unfold kkt; cbn [g_kind g_n g_w g_spec]; destruct Hk as [-> | ->]; reflexivity|]. intros b Hb. cbn beta. f_equal; [|ring].
  apply column_sum_some. intros a Ha. unfold filled. destruct (Nat.eqb_spec a b) as [->|N]; [reflexivity|]. rewrite div_some by (pose proof (Hd a b Ha Hb N); lra). f_equal. unfold Rdiv. ring.
Qed.
Print Assumptions C109_general.

(** On a positive mesh the 'antisymmetric' ('bosonic') kind gives the real part for the even continuation of the spectrum to negative frequencies, the 'symmetric'
    ('fermionic_phsym') kind that for the odd continuation. *)
Theorem C109_what_is_computed n w A : distinct n w -> positive n w ->
  (forall kind, kind = "bosonic"%string \/ kind = "antisymmetric"%string -> exists g, kkt (Green n w A kind) = Ok g /\ forall b, (b < n)%nat -> g b = (Some (hilbert_mirror 1 n w A b), - PI * A b)) /\
  (forall kind, kind = "fermionic_phsym"%string \/ kind = "symmetric"%string -> exists g, kkt (Green n w A kind) = Ok g /\ forall b, (b < n)%nat -> g b = (Some (hilbert_mirror (-1) n w A b), - PI * A b)).
Proof.
  intros Hd Hp. split; intros kind Hk; (eexists; split; [unfold kkt; cbn [g_kind g_n g_w g_spec]; destruct Hk as [-> | ->]; reflexivity|]); intros b Hb; cbn beta; (f_equal; [|ring]);
    apply column_sum_some; intros a Ha; unfold filled; (destruct (Nat.eqb_spec a b) as [->|N]; [reflexivity|]);
    pose proof (Hd a b Ha Hb N); pose proof (Hp a Ha); pose proof (Hp b Hb); (assert (D : w b ^ 2 - w a ^ 2 <> 0) by (rewrite square_diff; apply Rmult_integral_contrapositive_currified; lra));
    rewrite div_some by exact D; f_equal; field; repeat split; try lra; exact D.
Qed.
Print Assumptions C109_what_is_computed.

(** Refuted: the real part for a symmetric spectrum is that of the even continuation.  For a positive spectrum what is computed is always below it, and likewise
    what is computed for an antisymmetric spectrum always above that of the odd continuation: the two formulas are exchanged. *)
Theorem C109_swapped_refuted n w A b : (2 <= n)%nat -> increasing n w -> positive n w -> positive n A -> (b < n)%nat ->
  (forall g, kkt (Green n w A "symmetric") = Ok g -> exists x, fst (g b) = Some x /\ x < hilbert_mirror 1 n w A b) /\
  (forall g, kkt (Green n w A "antisymmetric") = Ok g -> exists x, fst (g b) = Some x /\ hilbert_mirror (-1) n w A b < x).
Proof.
  intros Hn Hi Hw HA Hb.
  assert (Lt : forall i j, (i < j)%nat -> (j < n)%nat -> w i < w j). { intros i j Hij. induction Hij as [|j Hij IH]; intros Hj; [apply Hi, Hj|]. specialize (IH ltac:(lia)). pose proof (Hi j Hj). lra. }
  assert (Hd : distinct n w). { intros i j H1 H2 N. destruct (Nat.lt_total i j) as [L|[L|L]]; [pose proof (Lt i j L H2); lra|lia|pose proof (Lt j i L H1); lra]. }
  assert (X : hilbert_mirror (-1) n w A b < hilbert_mirror 1 n w A b).
  { unfold hilbert_mirror, others.
    assert (T : forall a, (a < n)%nat -> a <> b -> dw_of n w a * (A a / (w b - w a) + -1 * A a / (w b - - w a)) < dw_of n w a * (A a / (w b - w a) + 1 * A a / (w b - - w a))).
    { intros a Ha N. apply Rmult_lt_compat_l; [apply dw_pos; assumption|]. pose proof (Hw a Ha). pose proof (Hw b Hb). pose proof (HA a Ha). assert (P : 0 < / (w b - - w a)) by (apply Rinv_0_lt_compat; lra). unfold Rdiv. nra. }
    set (j := if Nat.eqb b 0 then 1%nat else 0%nat). assert (Hj : (j < n)%nat /\ j <> b) by (unfold j; destruct (Nat.eqb_spec b 0); lia). destruct Hj as [Hj Nj].
    apply (rsum_lt n _ _ j).
    - intros a Ha. destruct (Nat.eqb_spec a b) as [|N]; [lra|]. left. apply T; assumption.
    - exact Hj.
    - destruct (Nat.eqb_spec j b); [contradiction|]. apply T; assumption. }
  destruct (C109_what_is_computed n w A Hd Hw) as [C1 C2]. split; intros g Hg.
  - destruct (C2 "symmetric"%string (or_intror eq_refl)) as (g' & E & H). rewrite Hg in E. injection E as ->. rewrite (H b Hb). eexists. split; [reflexivity|exact X].
  - destruct (C1 "antisymmetric"%string (or_intror eq_refl)) as (g' & E & H). rewrite Hg in E. injection E as ->. rewrite (H b Hb). eexists. split; [reflexivity|exact X].
Qed.
Print Assumptions C109_swapped_refuted.

(** Finding: on a mesh with a pair of opposite frequencies these two kinds give no number there (only a warning is printed). *)
Theorem C109_negative_finding n w A a b kind : In kind ["bosonic"; "antisymmetric"; "fermionic_phsym"; "symmetric"]%string -> (a < n)%nat -> (b < n)%nat -> a <> b -> w a = - w b ->
  exists g, kkt (Green n w A kind) = Ok g /\ fst (g b) = None.
Proof.
  intros Hk Ha Hb N E. cbn in Hk. destruct Hk as [<-|[<-|[<-|[<-|[]]]]]; (eexists; split; [reflexivity|]); cbn [fst g_n g_w g_spec]; apply (column_sum_none n _ a b Ha); unfold filled; rewrite (proj2 (Nat.eqb_neq a b) N);
    cbn [g_n g_w g_spec]; replace (w b ^ 2 - w a ^ 2) with 0 by (rewrite E; ring); apply div_none.
Qed.
Print Assumptions C109_negative_finding.

(** The transformation is linear in the spectrum; other kinds are refused. *)
Theorem C109_linear n w A B c kind : distinct n w -> positive n w -> In kind ["fermionic"; "general"; "bosonic"; "antisymmetric"; "fermionic_phsym"; "symmetric"]%string ->
  exists g gA gB, kkt (Green n w (fun a => A a + c * B a) kind) = Ok g /\ kkt (Green n w A kind) = Ok gA /\ kkt (Green n w B kind) = Ok gB /\
  forall b, (b < n)%nat -> exists x y, fst (gA b) = Some x /\ fst (gB b) = Some y /\ g b = (Some (x + c * y), snd (gA b) + c * snd (gB b)).
Proof.
  intros Hd Hp Hk.
  assert (G : exists T : (nat -> R) -> nat -> R, (forall X, exists g, kkt (Green n w X kind) = Ok g /\ forall b, (b < n)%nat -> g b = (Some (T X b), - PI * X b)) /\
    forall b, T (fun a => A a + c * B a) b = T A b + c * T B b).
  { cbn in Hk. destruct Hk as [<-|[<-|[<-|[<-|[<-|[<-|[]]]]]]].
    1,2: exists (hilbert n w); split; [intros X; apply C109_general; [auto|exact Hd]|intros b; unfold hilbert, others; rewrite <- rsum_scal, <- rsum_plus; apply rsum_ext; intros a _; destruct (Nat.eqb a b); [ring|unfold Rdiv; ring]].
    1,2: exists (hilbert_mirror 1 n w); split; [intros X; apply (proj1 (C109_what_is_computed n w X Hd Hp)); auto|intros b; apply hilbert_linear].
    1,2: exists (hilbert_mirror (-1) n w); split; [intros X; apply (proj2 (C109_what_is_computed n w X Hd Hp)); auto|intros b; apply hilbert_linear]. }
  destruct G as (T & HT & L). destruct (HT (fun a => A a + c * B a)) as (g & E & H). destruct (HT A) as (gA & EA & HA). destruct (HT B) as (gB & EB & HB).
  exists g, gA, gB. do 3 (split; [assumption|]). intros b Hb. exists (T A b), (T B b). rewrite (H b Hb), (HA b Hb), (HB b Hb), L. cbn [fst snd]. split; [reflexivity|]. split; [reflexivity|]. f_equal. ring.
Qed.
Print Assumptions C109_linear.
Theorem C109_kinds n w A kind : ~ In kind ["fermionic"; "general"; "bosonic"; "antisymmetric"; "fermionic_phsym"; "symmetric"]%string -> kkt (Green n w A kind) = Raise ValueError.
Proof.
  intros N. unfold kkt. cbn [g_kind]. repeat match goal with |- context [String.eqb kind ?k] => destruct (String.eqb_spec kind k) as [->|]; [exfalso; apply N; cbn; tauto|] end. reflexivity.
Qed.
Print Assumptions C109_kinds.
(** a mesh that meets the hypotheses, and the values there *)
Example C109_ex : let w i := INR i + 1 in increasing 3 w /\ positive 3 w /\ distinct 3 w /\ exists g, kkt (Green 3 w (fun _ => 1) "general") = Ok g /\ g 0%nat = (Some (-5 / 4), - PI * 1).
Proof.
  intros w. assert (D : distinct 3 w) by (intros i j _ _ N E; apply N, INR_eq; unfold w in E; lra).
  split; [intros i _; unfold w; rewrite S_INR; lra|]. split; [intros i _; unfold w; pose proof (pos_INR i); lra|]. split; [exact D|].
  destruct (C109_general 3 w (fun _ => 1) "general" (or_intror eq_refl) D) as (g & E & H). exists g. split; [exact E|]. rewrite (H 0%nat) by lia. do 2 f_equal.
  unfold hilbert, others, dw_of, edge, w. cbn. field.
Qed.
