(** Property C87: real-frequency meshes (dga/analytic_continuation.py:81-126). *)
From Coq Require Import ZArith Reals List String Lia Lra.
From Verif Require Import Base.PyBase Base.PyFacts Model.RealMesh Spec.RealMeshSpec Proofs.RealMeshP.
Import ListNotations.
Local Open Scope R_scope.
Local Open Scope string_scope.

(** Every supported mesh has the requested number of points, starts at wmin, ends at wmax, increases strictly and is symmetric about its centre. *)
Theorem C87_mesh : forall kind wmin wmax n cut, In kind ["lorentzian"; "hyperbolic"; "linear"; "tan"] -> (2 <= n)%Z -> wmin < wmax -> 0 < cut < 1 / 2 ->
  exists w, get_w_mesh kind wmin wmax n (Some cut) = Ok w /\ frequency_mesh w n wmin wmax.
Proof.
  intros kind wmin wmax n cut [<-|[<-|[<-|[<-|[]]]]] Hn Hw Hc.
  - exact (lorentzian_ok wmin wmax n cut Hn Hw Hc).
  - exact (hyperbolic_ok wmin wmax n Hn Hw).
  - exact (linear_ok wmin wmax n Hn Hw).
  - exact (tan_ok wmin wmax n Hn Hw).
Qed.
Print Assumptions C87_mesh.
(** On a symmetric window with an odd number of points the middle point is exactly zero and positive and negative frequencies are paired. *)
Theorem C87_zero_in_the_middle : forall kind wmax m cut w, In kind ["lorentzian"; "hyperbolic"; "linear"; "tan"] -> (1 <= m)%Z -> 0 < wmax -> 0 < cut < 1 / 2 ->
  get_w_mesh kind (- wmax) wmax (2 * m + 1) (Some cut) = Ok w ->
  zget w m = Some 0 /\ forall i a, zget w (m + i) = Some a -> zget w (m - i) = Some (- a).
Proof.
  intros kind wmax m cut w Hk Hm Hw Hc E. destruct (C87_mesh kind (- wmax) wmax (2 * m + 1) cut Hk ltac:(lia) ltac:(lra) Hc) as (w' & E' & F).
  assert (w' = w) by congruence. subst w'. destruct F as [L _ _ _ S]. split.
  - destruct (@zget_in_range _ w m ltac:(lia)) as [a Ha]. pose proof (S m a Ha) as S1. replace (2 * m + 1 - 1 - m)%Z with m in S1 by lia.
    assert (a = - wmax + wmax - a) by congruence. rewrite Ha. f_equal. lra.
  - intros i a Ha. pose proof (S _ _ Ha) as S1. replace (2 * m + 1 - 1 - (m + i))%Z with (m - i)%Z in S1 by lia. rewrite S1. f_equal. lra.
Qed.
Print Assumptions C87_zero_in_the_middle.
(** The only other outcomes: a Lorentzian mesh without cut, an unknown kind. *)
Theorem C87_errors : (forall wmin wmax n, get_w_mesh "lorentzian" wmin wmax n None = Raise AssertionError) /\
  (forall kind wmin wmax n cut, ~ In kind ["lorentzian"; "hyperbolic"; "linear"; "tan"] -> get_w_mesh kind wmin wmax n cut = Raise ValueError) /\
  (forall kind wmin wmax n, In kind ["hyperbolic"; "linear"; "tan"] -> forall cut, get_w_mesh kind wmin wmax n cut = get_w_mesh kind wmin wmax n None).
Proof.
  split; [reflexivity|]. split.
  - intros kind wmin wmax n cut H. unfold get_w_mesh. destruct (String.eqb_spec kind "lorentzian"); [subst; cbn in H; tauto|].
    destruct (String.eqb_spec kind "hyperbolic"); [subst; cbn in H; tauto|]. destruct (String.eqb_spec kind "linear"); [subst; cbn in H; tauto|].
    destruct (String.eqb_spec kind "tan"); [subst; cbn in H; tauto|]. reflexivity.
  - intros kind wmin wmax n [<-|[<-|[<-|[]]]] cut; reflexivity.
Qed.
Print Assumptions C87_errors.
(** The default mesh is not uniform: it gets wider away from the centre (cf. C86, whose bubble needs a uniform mesh). *)
Theorem C87_tan_mesh_not_uniform : forall wmin wmax M w a b c, (2 <= M)%Z -> wmin < wmax -> get_w_mesh "tan" wmin wmax (2 * M + 1) None = Ok w ->
  zget w M = Some a -> zget w (M + 1) = Some b -> zget w (M + 2) = Some c -> b - a < c - b.
Proof. exact tan_not_uniform. Qed.
Print Assumptions C87_tan_mesh_not_uniform.
(** The default settings of the continuation (-15, 15, 501 points, cut 0.04) satisfy the hypotheses. *)
Example C87_case : (exists w, get_w_mesh "tan" (-15) 15 501 (Some 0.04) = Ok w /\ frequency_mesh w 501 (-15) 15 /\ zget w 250 = Some 0).
Proof.
  destruct (C87_mesh "tan" (-15) 15 501 0.04 ltac:(cbn; tauto) ltac:(lia) ltac:(lra) ltac:(lra)) as (w & E & F). exists w. split; [exact E|]. split; [exact F|].
  replace (-15) with (- (15)) in E by lra. exact (proj1 (C87_zero_in_the_middle "tan" 15 250 0.04 w ltac:(cbn; tauto) ltac:(lia) ltac:(lra) ltac:(lra) E)).
Qed.
