(** Properties C31, C32, C71: bubbles (dga/bubble.py). *)
From mathcomp Require Import all_ssreflect all_algebra.
From mathcomp.real_closed Require Import complex.
From Coq Require Import String ZArith Lia.
From Verif Require Import Base.PyBase Base.PyFacts Base.FieldTac Base.Arr Model.Matsubara Model.TwoPoint Spec.TwoPointSpec Spec.BZSpec.
From Verif Require Model.BrillouinZone.
From Verif Require Import Model.Bubble Spec.BubbleSpec Proofs.TwoPointP Proofs.BubbleP Proofs.BubbleLatP Proofs.BubbleIrrP.
Import Order.TTheory GRing.Theory Num.Theory.
Set Implicit Arguments. Unset Strict Implicit. Unset Printing Implicit Defensive.
Local Open Scope ring_scope.
Local Open Scope complex_scope.

(** ** C31 *)
(** The local bubble is -beta G(v+s1) G(v+s2) on the requested window, for every convention and list of w. *)
Theorem C31_bubble_definition : forall (R : rcfType) N (G : Z -> R[i]) beta niv wn c, (0 <= niv)%Z -> (forall w, In w wn -> (niv + Z.abs w <= N)%Z) ->
  vec_get_gchi0 (frow N G) beta niv wn (name c) false = Ok (map (fun w => frow niv (bub beta G c w)) wn).
Proof. exact vec_gchi0_ok. Qed.
Print Assumptions C31_bubble_definition.
(** Conjugation symmetry of the bubble; for 'center' at even w. *)
Theorem C31_conjugation : forall (R : rcfType) (beta : R) (G : Z -> R[i]) c w v, conj_symmetric G -> (c <> Center \/ w mod 2 = 0)%Z ->
  bub beta G c w v = conjc (bub beta G c (- w) (- v - 1)%Z).
Proof. by move=> R beta G c w v H Hc; rewrite bub_neg_ok. Qed.
Print Assumptions C31_conjugation.
(** The shortcut for the full bosonic range returns the bubble at w = -nw..nw. *)
Theorem C31_full_range_shortcut : forall (R : rcfType) N (G : Z -> R[i]) beta niv nw c, conj_symmetric G -> c <> Center -> (0 <= niv)%Z -> (0 <= nw)%Z -> (niv + nw <= N)%Z ->
  vec_get_gchi0 (frow N G) beta niv (Matsubara.wn nw 0 false) (name c) true = Ok (brow nw (fun w => frow niv (bub beta G c w))).
Proof. exact vec_gchi0_shortcut. Qed.
Print Assumptions C31_full_range_shortcut.
(** The summed bubble is the generalised bubble with its legs contracted, with and without the shortcut. *)
Theorem C31_summed_bubble : forall (R : rcfType) N (G : Z -> R[i]) beta niv wn c, beta != 0 -> (0 <= niv)%Z -> (forall w, In w wn -> (niv + Z.abs w <= N)%Z) ->
  vec_get_chi0_sum (frow N G) beta niv wn (name c) false = Ok (map (fun w => 1 / beta%:C ^+ 2 * lsum (frow niv (bub beta G c w))) wn).
Proof. exact vec_chi0_sum_ok. Qed.
Print Assumptions C31_summed_bubble.
Theorem C31_summed_bubble_shortcut : forall (R : rcfType) N (G : Z -> R[i]) beta niv nw c, beta != 0 -> conj_symmetric G -> c <> Center -> (0 <= niv)%Z -> (0 <= nw)%Z -> (niv + nw <= N)%Z ->
  vec_get_chi0_sum (frow N G) beta niv (Matsubara.wn nw 0 false) (name c) true = Ok (brow nw (fun w => 1 / beta%:C ^+ 2 * lsum (frow niv (bub beta G c w)))).
Proof. exact vec_chi0_sum_shortcut. Qed.
Print Assumptions C31_summed_bubble_shortcut.
(** get_gchi0_vvp_full: the matrix with the bubble on the diagonal and zeros elsewhere. *)
Theorem C31_bubble_matrix : forall (R : rcfType) niv (B : Z -> R[i]), (0 <= niv)%Z ->
  gchi0_vvp (frow niv B) = frow niv (fun v => frow niv (fun v' => if (v =? v')%Z then B v else 0)).
Proof.
  move=> R niv B Hn. have L : length (frow niv B) = Z.to_nat (2 * niv) by rewrite /frow List.map_length /arange List.map_length List.seq_length; f_equal; lia.
  have A : arange (- niv) niv = List.map (fun i => - niv + Z.of_nat i)%Z (List.seq 0 (Z.to_nat (2 * niv))) by rewrite /arange; do 3 f_equal; lia.
  rewrite /gchi0_vvp L {2}/frow A List.map_map. apply: List.map_ext_in => i /List.in_seq Hi. rewrite /diag_row L [RHS]/frow A [RHS]List.map_map. apply: List.map_ext_in => j /List.in_seq Hj.
  case: (Nat.eqb_spec i j) => H; case: Z.eqb_spec => H'; try lia; try by [].
  have E : zget (frow niv B) (Z.of_nat i) = Some (B (Z.of_nat i - niv)%Z) by rewrite zget_frow; [|lia].
  move: E. rewrite /zget. case: Z.ltb_spec => [|_]; first by lia. rewrite Nat2Z.id => E. rewrite (List.nth_error_nth _ _ _ E). f_equal. lia.
Qed.
Print Assumptions C31_bubble_matrix.
(** Finding: in the 'center' convention the shortcut moves the rows of odd negative w by one fermionic index ... *)
Theorem C31_center_odd_shifted_finding : forall (R : rcfType) N (G : Z -> R[i]) beta niv nw, conj_symmetric G -> (0 <= niv)%Z -> (0 <= nw)%Z -> (niv + nw <= N)%Z ->
  vec_get_gchi0 (frow N G) beta niv (Matsubara.wn nw 0 false) "center" true =
  Ok (brow nw (fun w => frow niv (fun v => bub beta G Center w (if Z.ltb w 0 && Z.odd w then v + 1 else v)%Z))).
Proof.
  move=> R N G beta niv nw HG H1 H2 H3. rewrite (@vec_gchi0_full R N G beta niv nw Center) //. f_equal. apply: brow_ext => w Hw. apply: frow_ext => v Hv.
  case: (Z.leb_spec 0 w); case: (Z.ltb_spec w 0) => //=; try lia. move=> _ _. case Ho: (Z.odd w).
  - apply: bub_neg_center => //. rewrite Zmod_odd Ho //.
  - apply: bub_neg_ok => //. right. by rewrite Zmod_odd Ho.
Qed.
Print Assumptions C31_center_odd_shifted_finding.
(** ... so the shortcut disagrees with the direct evaluation. *)
Theorem C31_center_shortcut_refuted : forall R : rcfType, exists G : Z -> R[i], conj_symmetric G /\
  vec_get_gchi0 (frow 2 G) 1 1 (Matsubara.wn 1 0 false) "center" true <> vec_get_gchi0 (frow 2 G) 1 1 (Matsubara.wn 1 0 false) "center" false.
Proof.
  move=> R. pose G := iv (1 : R). have HG : conj_symmetric G by move=> v; exact: iv_conj. exists G. split=> //.
  rewrite C31_center_odd_shifted_finding //; try lia. rewrite (@vec_gchi0_ok R 2 G 1 1 _ Center); [|lia|]; last first.
  { move=> w. rewrite /Matsubara.wn => /In_arange. lia. }
  have Oki : forall (A : Type) (a b : A), Ok a = Ok b -> a = b by move=> A a b [].
  have Soi : forall (A : Type) (a b : A), Some a = Some b -> a = b by move=> A a b [].
  move=> E0. have E := Oki _ _ _ E0. have := congr1 (fun l => zget l 0) E. rewrite zget_brow; [|lia]. rewrite zget_map /Matsubara.wn zget_arange; [|lia].
  move=> E1. have := congr1 (fun l => zget l 1) (Soi _ _ _ E1). rewrite !zget_frow; [|lia|lia]. move=> E2'. have := Soi _ _ _ E2'. rewrite -[_ = _]/(- 1%:C * G 0%Z * G 1%Z = - 1%:C * G (-1)%Z * G 0%Z).
  rewrite mulrAC => E2. have H0 : 0 < nu (1 : R) 0 by apply: nu_gt0 => //; exact: ltr01. have H1 : 0 < nu (1 : R) 1 by apply: nu_gt0 => //; exact: ltr01.
  have G0 : G 0%Z != 0 by apply/eqP => /(congr1 (@complex.Im R)) Ez; move: H0; rewrite -[nu _ _]/(complex.Im (G 0%Z)) Ez ltxx.
  have {E2} := mulIf G0 E2. have HC : - (1%:C : R[i]) != 0 by rewrite oppr_eq0 oner_eq0. move/(mulfI HC) => /(congr1 (@complex.Im R)).
  rewrite -[complex.Im (G 1%Z)]/(nu (1 : R) 1) -[complex.Im _]/(nu (1 : R) (- 0 - 1)) nu_opp => E3. move: H1. by rewrite E3 oppr_gt0 ltNge ltW.
Qed.
Print Assumptions C31_center_shortcut_refuted.
(** Finding: the shortcut looks only at the number of frequencies.  A symmetric grid with gaps, such as [-2,0,2], passes the assertion of
    BubbleGenerator.__init__ but the returned values belong to [-1,0,1]. *)
Theorem C31_gapped_grid_finding : forall (R : rcfType) (giw : list R[i]) beta niv wn wn' nt, zlen wn = zlen wn' ->
  vec_get_gchi0 giw beta niv wn nt true = vec_get_gchi0 giw beta niv wn' nt true.
Proof. by move=> R giw beta niv wn wn' nt E; rewrite /vec_get_gchi0 E. Qed.
Print Assumptions C31_gapped_grid_finding.
(** the hypotheses are met by G(iv) = 1/iv type data: G = iv on a box, N = 5, niv = 3, nw = 2 *)
Example C31_nonvacuous : forall R : rcfType, conj_symmetric (iv (1 : R)) /\ Plus <> Center /\ (3 + 2 <= 5)%Z.
Proof. move=> R. split; [exact: iv_conj|split; [discriminate|lia]]. Qed.

(** ** C32 *)
(** The lattice bubble is -beta <G(k,v+s1) G(k+q,v+s2)>_k: the second momentum is k+q in every convention (the docstring says k-q for 'minus').
    The frequency cut applied to G before the loops changes nothing. *)
Theorem C32_lattice_bubble : forall (R : rcfType) nx ny nz N (G : mesh nx ny nz -> Z -> R[i]) beta niv c, (0 <= niv)%Z -> forall wn qs, wn <> nil -> (forall w, In w wn -> (niv + Z.abs w <= N)%Z) ->
  vec_get_gchi0_q (fun k => frow N (G k)) (2 * N) beta niv wn qs (name c) false = Ok (map (fun q => map (fun w => frow niv (qbub beta G c q w)) wn) qs).
Proof. exact vec_gchi0_q_ok. Qed.
Print Assumptions C32_lattice_bubble.
Theorem C32_lattice_shortcut : forall (R : rcfType) nx ny nz N (G : mesh nx ny nz -> Z -> R[i]) beta niv c, (0 <= niv)%Z -> (forall k, conj_symmetric (G k)) ->
  forall nw qs, c <> Center -> (0 <= nw)%Z -> (niv + nw <= N)%Z ->
  vec_get_gchi0_q (fun k => frow N (G k)) (2 * N) beta niv (Matsubara.wn nw 0 false) qs (name c) true = Ok (map (fun q => brow nw (fun w => frow niv (qbub beta G c q w))) qs).
Proof. exact vec_gchi0_q_shortcut. Qed.
Print Assumptions C32_lattice_shortcut.
Theorem C32_summed_lattice_bubble : forall (R : rcfType) nx ny nz N (G : mesh nx ny nz -> Z -> R[i]) beta niv c, (0 <= niv)%Z -> forall wn qs, beta != 0 -> wn <> nil -> (forall w, In w wn -> (niv + Z.abs w <= N)%Z) ->
  vec_get_chi0_q (fun k => frow N (G k)) (2 * N) beta niv wn qs (name c) false = Ok (map (fun q => map (fun w => 1 / beta%:C ^+ 2 * lsum (frow niv (qbub beta G c q w))) wn) qs).
Proof. exact vec_chi0_q_ok. Qed.
Print Assumptions C32_summed_lattice_bubble.
Theorem C32_summed_lattice_shortcut : forall (R : rcfType) nx ny nz N (G : mesh nx ny nz -> Z -> R[i]) beta niv c, (0 <= niv)%Z -> (forall k, conj_symmetric (G k)) ->
  forall nw qs, beta != 0 -> c <> Center -> (0 <= nw)%Z -> (niv + nw <= N)%Z ->
  vec_get_chi0_q (fun k => frow N (G k)) (2 * N) beta niv (Matsubara.wn nw 0 false) qs (name c) true = Ok (map (fun q => brow nw (fun w => 1 / beta%:C ^+ 2 * lsum (frow niv (qbub beta G c q w)))) qs).
Proof. exact vec_chi0_q_shortcut. Qed.
Print Assumptions C32_summed_lattice_shortcut.
(** Averaging over all momenta of the mesh gives the bubble of the local (k averaged) Green's function. *)
Theorem C32_q_average_is_local : forall nx ny nz (R : rcfType) (G : mesh nx ny nz -> Z -> R[i]) (beta : R) c w v,
  (\sum_(p : mesh nx ny nz) qbub beta G c (qpoint p) w v) / #|{: mesh nx ny nz}|%:R = bub beta (fun v => (\sum_(k : mesh nx ny nz) G k v) / #|{: mesh nx ny nz}|%:R) c w v.
Proof. exact qbub_mean. Qed.
Print Assumptions C32_q_average_is_local.
(** Translation covariance: periodic in q, and unchanged if all momenta of G are shifted. *)
Theorem C32_periodic_in_q : forall nx ny nz (R : rcfType) (G : mesh nx ny nz -> Z -> R[i]) (beta : R) c q p w v, same_q nx ny nz q p -> qbub beta G c q w v = qbub beta G c p w v.
Proof. exact qbub_same. Qed.
Print Assumptions C32_periodic_in_q.
Theorem C32_translation : forall nx ny nz (R : rcfType) (G : mesh nx ny nz -> Z -> R[i]) (beta : R) p c q w v, qbub beta (fun k => G (kplusq k p)) c q w v = qbub beta G c q w v.
Proof. exact qbub_shift. Qed.
Print Assumptions C32_translation.
(** Crossing: exchanging the two Green's functions. *)
Theorem C32_crossing : forall nx ny nz (R : rcfType) (G : mesh nx ny nz -> Z -> R[i]) (beta : R) q w v,
  qbub beta G Minus (qneg q) (- w) (v - w)%Z = qbub beta G Minus q w v /\ qbub beta G Plus (qneg q) (- w) (v + w)%Z = qbub beta G Plus q w v.
Proof. by move=> nx ny nz R G beta q w v; split; [exact: qbub_cross_minus|exact: qbub_cross_plus]. Qed.
Print Assumptions C32_crossing.
(** an example where the bubble at q=1 differs from that at q=0: two k points with G = 1 and G = 2 *)
Example C32_nonvacuous : forall R : rcfType, let G (k : mesh 2 1 1) (v : Z) := ((nat_of_ord k.1.1).+1%:R : R[i]) in
  (\sum_(k : mesh 2 1 1) G k 0%Z * G (kplusq k (1, 0, 0)%Z) 0%Z) = 4%:R /\ (\sum_(k : mesh 2 1 1) G k 0%Z * G (kplusq k (0, 0, 0)%Z) 0%Z) = 5%:R.
Proof.
  move=> R G. have S : forall F : mesh 2 1 1 -> R[i], \sum_(k : mesh 2 1 1) F k = F (ord0, ord0, ord0) + F (lift ord0 ord0, ord0, ord0).
  { move=> F. rewrite (eq_bigr (fun p : mesh 2 1 1 => F (p.1, p.2))) => [|[a b] _ //]. rewrite -(pair_bigA _ (fun p c => F (p, c))) /=.
    rewrite (eq_bigr (fun p : 'I_2 * 'I_1 => F ((p.1, p.2), ord0))) => [|[a b] _]; last by rewrite big_ord_recl big_ord0 addr0.
    rewrite -(pair_bigA _ (fun a b => F ((a, b), ord0))) /=. by rewrite !big_ord_recl !big_ord0 !addr0. }
  rewrite !S /G /=. by rewrite -!natrM -!natrD.
Qed.

(** ** C71 *)
(** The bubble of a Green's function with the symmetries of the grid, evaluated at the irreducible momenta only and unfolded, is the bubble at all momenta. *)
Theorem C71_irreducible_bubble : forall nx ny nz (R : rcfType) (G : mesh nx ny nz -> Z -> R[i]) (beta : R) syms g irrq N niv wn c,
  (0 < nx)%nat -> (0 < ny)%nat -> (0 < nz)%nat -> Forall known syms -> BrillouinZone.make_kgrid (Z.of_nat nx) (Z.of_nat ny) (Z.of_nat nz) syms = Ok g ->
  BrillouinZone.get_irrq_list g = Ok irrq -> (forall s, In s syms -> has_symmetry G s) -> (0 <= niv)%Z -> wn <> nil -> (forall w, In w wn -> (niv + Z.abs w <= N)%Z) ->
  exists irr f, [/\ vec_get_gchi0_q (fun k => frow N (G k)) (2 * N) beta niv wn irrq (name c) false = Ok irr, BrillouinZone.map_irrk2fbz g irr = Ok f,
    shape3 f (Z.of_nat nx) (Z.of_nat ny) (Z.of_nat nz) &
    forall q, on_mesh (Z.of_nat nx) (Z.of_nat ny) (Z.of_nat nz) q -> at3 f q = Some (map (fun w => frow niv (qbub beta G c q w)) wn)].
Proof. exact bubble_irr. Qed.
Print Assumptions C71_irreducible_bubble.
(** The point operations themselves are symmetries of the bubble. *)
Theorem C71_bubble_symmetric : forall nx ny nz (R : rcfType) (G : mesh nx ny nz -> Z -> R[i]) (beta : R) s c q w v, has_symmetry G s ->
  on_mesh (Z.of_nat nx) (Z.of_nat ny) (Z.of_nat nz) q -> qbub beta G c (point_op (Z.of_nat nx) (Z.of_nat ny) (Z.of_nat nz) s q) w v = qbub beta G c q w v.
Proof. exact qbub_point_op. Qed.
Print Assumptions C71_bubble_symmetric.
(** a nonconstant G on a 4x4x1 mesh with x inversion: G = 1 at kx = 1 and 3, else 0 *)
Example C71_nonvacuous : forall R : rcfType, let G (k : mesh 4 4 1) (v : Z) : R[i] := (if Nat.odd k.1.1 then 1 else 0) in
  has_symmetry G "x-inv"%string /\ exists g, BrillouinZone.make_kgrid 4 4 1 ("x-inv"%string :: nil) = Ok g.
Proof.
  move=> R G. split.
  - move=> [[[a Ha] b] c] [[[a' Ha'] b'] c'] v. rewrite /qpoint /point_op /= => -[E _ _]. rewrite /G /=. have -> // : Nat.odd a = Nat.odd a'.
    move: a a' Ha Ha' E. by do 4?[case=> //]; do 4?[case=> //].
  - eexists. vm_compute. reflexivity.
Qed.
