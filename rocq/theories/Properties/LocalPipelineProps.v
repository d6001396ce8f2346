(** C95: the local part of a run, from the measured two-particle Green's function to the local self-energy. *)
From mathcomp Require Import all_ssreflect all_algebra.
From mathcomp.real_closed Require Import complex.
From Coq Require Import String ZArith Lia.
From Verif Require Import Base.PyBase Base.PyFacts Base.FieldTac Base.Arr Model.Matsubara Model.LocalFourPoint Model.LocalPipeline.
From Verif Require Import Spec.BseSpec Spec.TwoPointSpec Spec.BubbleSpec Spec.LocalPipelineSpec.
From Verif Require Import Proofs.LocalFourPointP Proofs.LocalSDEP Proofs.BubbleP Proofs.LocalPipelineP Proofs.LocalPipelineMainP.
Set Implicit Arguments. Unset Strict Implicit. Unset Printing Implicit Defensive.
Import GRing.Theory Num.Theory.
Local Open Scope ring_scope.
Local Open Scope complex_scope.

Section C95.
Variable R : rcfType.
Notation C := R[i].
Add Field Fgq : (@Kft (ComplexField.complex_fieldType R)).

Lemma vrg_ext_continued nc ns (v : 'rV[C]_(nc.*2)) : continued v (@vrg_ext _ nc ns v).
Proof.
  split=> [i I /core_ofP ->|I]; rewrite /vrg_ext ?core_idx_ord //. rewrite in_coreP. by case: (core_idx I).
Qed.

(** The impurity problem a run starts from: Green's function G (Hermitian, non-zero on the 2N stored frequencies) and in the
    two channels a susceptibility chi that solves the Bethe-Salpeter equation with an irreducible vertex equal to gam on the
    2 nc core frequencies and to +-u on the 2 ns further ones; F is its full vertex, core the core block of chi, and g2 is the
    measured two-particle Green's function in the core.  Then the run either returns exactly these vertices (over beta^2), the physical
    susceptibilities, three-leg vertices satisfying the definition on the whole box (1 outside the core) and the self-energy of
    the equation of motion - this when the ladders the algorithm inverts are regular - or ends with LinAlgError. *)
Section Problem.
Variables (nc ns : nat) (beta u n : R) (nw N : Z) (G : Z -> C).
Variables (gd gm cd cm : Z -> 'M[C]_(nc.*2)) (chid chim Fd Fm : Z -> 'M[C]_((nc + ns).*2)) (g2d g2m : list (list (list C))).
Let chi0 := bubble_row (nc + ns) beta G.
Let chi0c := bubble_row nc beta G.
Definition impurity_problem : Prop :=
  [/\ beta != 0, (0 < nc)%nat, (0 <= nw)%Z & (Z.of_nat nc + Z.of_nat ns + nw <= N)%Z] /\
  [/\ conj_symmetric G, (forall v, (- N <= v < N)%Z -> G v != 0),
      (forall w, (- nw <= w <= nw)%Z -> solves beta u%:C (chi0 w) (gd w) (cd w) (chid w) (Fd w) /\ solves beta (- u%:C) (chi0 w) (gm w) (cm w) (chim w) (Fm w)),
      is_g2 true beta nw G cd g2d & is_g2 false beta nw G cm g2m].
Definition ladders_regular : Prop :=
  forall w, (- nw <= w <= nw)%Z -> regular beta u%:C (chi0 w) (chi0c w) (gd w) (cd w) /\ regular beta (- u%:C) (chi0 w) (chi0c w) (gm w) (cm w).
Let run := @local_sde_from_g2 R nc ns g2d g2m (frow N G) beta u n (Matsubara.wn nw 0 false).

Theorem C95_local_run : impurity_problem -> ladders_regular -> exists r, run = Ok r /\
  [/\ lr_gamma_dens r = [seq (beta%:C ^+ 2)^-1 *: gd w | w <- arange (- nw) (nw + 1)],
      lr_gamma_magn r = [seq (beta%:C ^+ 2)^-1 *: gm w | w <- arange (- nw) (nw + 1)],
      lr_chi_dens r = [seq phys beta%:C (chid w) | w <- arange (- nw) (nw + 1)] &
      lr_chi_magn r = [seq phys beta%:C (chim w) | w <- arange (- nw) (nw + 1)]] /\
  [/\ zlen (lr_vrg_dens r) = (2 * nw + 1)%Z, zlen (lr_vrg_magn r) = (2 * nw + 1)%Z,
      (forall w, (- nw <= w <= nw)%Z -> exists v g, zget (lr_vrg_dens r) (nw + w) = Some v /\ continued v g /\ three_leg beta%:C u%:C (chi0 w) (chid w) g) &
      (forall w, (- nw <= w <= nw)%Z -> exists v g, zget (lr_vrg_magn r) (nw + w) = Some v /\ continued v g /\ three_leg beta%:C (- u%:C) (chi0 w) (chim w) g)] /\
  lr_siw r = [seq equation_of_motion beta u n nw G Fd Fm v | v <- enum 'I_((nc + ns).*2)].
Proof.
  move=> [[hb hc hw hN] [hG hnz hs h2d h2m]] hreg.
  have [+ _] := @pipeline R nc ns beta u n nw N G gd gm cd cm chid chim Fd Fm g2d g2m hb hc hw hN hG hnz (fun w h => proj1 (hs w h)) (fun w h => proj2 (hs w h)) h2d h2m.
  case/(_ hreg) => r [er [h1 [[h3 h4 h5 h6] h7]]]. exists r. split; first exact: er. split; first exact: h1. split; last exact: h7. split=> //.
  - move=> w /h5 [v [ev h]]. exists v, (vrg_ext v). split=> //. split=> //. exact: vrg_ext_continued.
  - move=> w /h6 [v [ev h]]. exists v, (vrg_ext v). split=> //. split=> //. exact: vrg_ext_continued.
Qed.

Theorem C95_singular_raises : impurity_problem -> ~ ladders_regular -> run = Raise LinAlgError.
Proof.
  move=> [[hb hc hw hN] [hG hnz hs h2d h2m]] hreg.
  have [_ +] := @pipeline R nc ns beta u n nw N G gd gm cd cm chid chim Fd Fm g2d g2m hb hc hw hN hG hnz (fun w h => proj1 (hs w h)) (fun w h => proj2 (hs w h)) h2d h2m.
  by apply.
Qed.
End Problem.

(** The variant with the asymptotic susceptibility that starts from chi (no run reaches it): with a float U it cannot return, and
    where an integer U would return the outcome is TypeError; with an integer U it sums the auxiliary susceptibility along the
    axis with that number: the right axis (the last one) exactly for U = 2 and U = -1, no result at all unless -3 <= U < 3. *)
Theorem C95_chir_uasympt_finding nc channel (beta : R) (u : C) (wn : list Z) (chir : list 'M[C]_(nc.*2)) :
  (forall x ax, chir_uasympt_axis channel beta u (PyFloat x) wn chir <> Ok ax) /\
  (forall z ax, chir_uasympt_axis channel beta u (PyInt _ z) wn chir = Ok ax -> (-3 <= z < 3)%Z /\ (ax = AxVp <-> z = 2 \/ z = -1)%Z) /\
  (forall z x ax, chir_uasympt_axis channel beta u (PyInt _ z) wn chir = Ok ax -> chir_uasympt_axis channel beta u (PyFloat x) wn chir = Raise TypeError).
Proof.
  rewrite /chir_uasympt_axis. split; [move=> x ax|split; [move=> z ax|move=> z x ax]]; case: (get_ur _ _) => [ur|] //=; case: (mapM _ _) => [g|] //=.
  rewrite /np_axis3. case: (Z.eqb_spec z 0) => [->|?] /=; first by move=> [<-]; split; [lia|split=> // -[|]; lia].
  case: (Z.eqb_spec z (-3)) => [->|?] /=; first by move=> [<-]; split; [lia|split=> // -[|]; lia].
  case: (Z.eqb_spec z 1) => [->|?] /=; first by move=> [<-]; split; [lia|split=> // -[|]; lia].
  case: (Z.eqb_spec z (-2)) => [->|?] /=; first by move=> [<-]; split; [lia|split=> // -[|]; lia].
  case: (Z.eqb_spec z 2) => [->|?] /=; first by move=> [<-]; split; [lia|split=> // _; left].
  case: (Z.eqb_spec z (-1)) => [->|?] //=; by move=> [<-]; split; [lia|split=> // _; right].
Qed.

(** The lattice variant (no run reaches it): the double-counting kernel is computed from an array instead of a vertex object, so
    with at least one momentum and one frequency the call ends with AttributeError. *)
Theorem C95_uasympt_q_finding n (f_dc_mat : list 'M[C]_n) (row : list 'rV[C]_n) (rows : list (list 'rV[C]_n)) x :
  uasympt_q_kernel_dc f_dc_mat ((x :: row) :: rows) = Raise AttributeError.
Proof.
  rewrite /uasympt_q_kernel_dc /get_kernel_dc /=. 
  have [t ->] : exists t, range (zlen (x :: row)) = (0 :: t)%Z.
    rewrite /range /zlen. rewrite [Datatypes.length _]/= arange_cons; last lia. by eexists.
  by [].
Qed.

(** A problem that meets the hypotheses: one core and one shell frequency on each side, w = 0 only, beta = U = 1, G = -i and +i on
    the positive and negative axis (bubble 1 everywhere), vertices +-U (random phase approximation). *)
Let G1 (v : Z) : C := if (0 <=? v)%Z then - 'i else 'i.
Let J n : 'M[C]_n := const_mx 1.
Let aIbJ n (a b : C) : 'M[C]_n := a%:M + b *: J n.
Lemma aIbJ_mul n a b c d : aIbJ n a b *m aIbJ n c d = aIbJ n (a * c) (a * d + b * c + n%:R * b * d).
Proof.
  rewrite /aIbJ. have JJ : J n *m J n = n%:R *: J n by apply/matrixP => i j; rewrite !mxE; under eq_bigr do rewrite !mxE mulr1; rewrite sumr_const card_ord mulr1.
  rewrite mulmxDl !mulmxDr !mul_scalar_mx !mul_mx_scalar -!scalemxAl -!scalemxAr JJ !scalerA scale_scalar_mx -!addrA. congr (_ + _).
  rewrite -!scalerDl. congr (_ *: _). by rewrite [c * b]mulrC [b * d * _]mulrC mulrA !addrA.
Qed.
Lemma aIbJE n a b i j : aIbJ n a b i j = a *+ (i == j) + b. Proof. by rewrite !mxE mulr1. Qed.
Let beta1 : ((1 : R)%:C : C) = 1. Proof. by []. Qed.
Lemma G1sq v : G1 v * G1 v = - 1. Proof. rewrite /G1. by case: ifP => _; rewrite ?mulrNN -expr2 sqr_i. Qed.
Lemma chi0_1 n : bubble_row n (1 : R) G1 0 = const_mx 1.
Proof. apply/matrixP => i j. by rewrite !mxE Z.sub_0_r -mulrA G1sq beta1 mulrNN mulr1. Qed.
Lemma bse_J n g a b c : aIbJ n 1 c *m aIbJ n a b = 1%:M -> (0 < n)%nat -> g = c -> bethe_salpeter (const_mx 1 : 'rV[C]_n) (const_mx g) (aIbJ n a b).
Proof.
  move=> h hn ->. apply/bseP; first by move=> i; rewrite mxE oner_eq0. rewrite -[RHS]h. congr (_ *m _). apply/matrixP => i j. rewrite aIbJE !mxE invr1 mulr1. by case: eqP.
Qed.
Let g2_of (dens : bool) (core : 'M[C]_2) : list (list (list C)) :=
  [:: [seq [seq core i j / 1 + (if dens then 2%:R * G1 (@fq 1 i) * G1 (@fq 1 j) else 0) | j <- enum 'I_2] | i <- enum 'I_2]].
Lemma g2_of_ok dens core : @is_g2 R 1 dens 1 0 G1 (fun _ => core) (g2_of dens core).
Proof.
  split.
  - split=> // r [<-|//]. split; first by rewrite zlen_seq size_map size_enum_ord.
    move=> row /List.in_map_iff [i [<- _]]. by rewrite zlen_seq size_map size_enum_ord.
  - move=> w i j hw. have -> : w = 0%Z by lia. rewrite /get3 /=. rewrite /get2 zget_enum /= zget_enum. by rewrite andbT.
Qed.
Lemma sum_aIbJ n a b : \sum_i \sum_j aIbJ n a b i j = n%:R * (a + n%:R * b).
Proof.
  have e (i : 'I_n) : \sum_j aIbJ n a b i j = a + n%:R * b.
    under eq_bigr do rewrite aIbJE. rewrite big_split /= sumr_const card_ord mulr_natl (bigD1 i) //= eqxx mulr1n big1 ?addr0 // => k hk. by rewrite eq_sym (negbTE hk).
  under eq_bigr do rewrite e. by rewrite sumr_const card_ord !mulr_natl.
Qed.
Lemma solves1 (ur : C) b : aIbJ 4 1 ur *m aIbJ 4 1 b = 1%:M -> 1 + 4%:R * b != 0 ->
  @solves R 1 1 1 ur (bubble_row 2 1 G1 0) (const_mx ur) (aIbJ 2 1 b) (aIbJ 4 1 b) (const_mx (- b)).
Proof.
  move=> h hp. rewrite chi0_1 /solves beta1 expr1n invr1 !scale1r. split; [|split; [|split]].
  - exists (const_mx ur). split; last by rewrite scale1r; exact: (@bse_J 4 ur 1 b ur h isT erefl). by split=> *; rewrite !mxE.
  - move=> i j. rewrite aIbJE !mxE !mul1r mulr1 opprK. by case: eqP.
  - move=> i j I K hi hj. rewrite !aIbJE. congr (_ *+ _ + _). by rewrite -!val_eqE /= hi hj eqn_add2r.
  - by rewrite /phys expr1n invr1 mul1r sum_aIbJ mulf_neq0 // pnatr_eq0.
Qed.
Lemma regular1 (ur b c : C) : aIbJ 4 1 ur *m aIbJ 4 1 b = 1%:M -> aIbJ 2 1 b *m aIbJ 2 1 c = 1%:M ->
  @regular R 1 1 1 ur (bubble_row 2 1 G1 0) (bubble_row 1 1 G1 0) (const_mx ur) (aIbJ 2 1 b).
Proof.
  move=> h hc. rewrite !chi0_1 /regular beta1 expr1n invr1. split; [|split].
  - exists (aIbJ 4 1 b), (aIbJ 2 1 b). split; [|split; [|by exists (aIbJ 2 1 c)]].
    + rewrite mulr1. exact: (@bse_J 4 ur 1 b ur h isT erefl).
    + move=> i j I K hi hj. rewrite !aIbJE. congr (_ *+ _ + _). by rewrite -!val_eqE /= hi hj eqn_add2r.
  - by exists (aIbJ 2 1 c).
  - exists 1%:M. move=> i j. rewrite subrr scaler0 !mxE mul1r big1 ?subr0; last by move=> k _; rewrite !mxE mul0r. by case: eqP.
Qed.
Let fifth : C := 5%:R^-1. Let third : C := 3%:R^-1.
Lemma ladders4 : [/\ aIbJ 4 1 1 *m aIbJ 4 1 (- fifth) = 1%:M, aIbJ 4 1 (- 1) *m aIbJ 4 1 (- third) = 1%:M,
   aIbJ 2 1 (- fifth) *m aIbJ 2 1 third = 1%:M & aIbJ 2 1 (- third) *m aIbJ 2 1 1 = 1%:M].
Proof.
  have h5 : (5%:R : C) != 0 by rewrite pnatr_eq0. have h3 : (3%:R : C) != 0 by rewrite pnatr_eq0.
  have e : aIbJ 4 1 0 = 1%:M by rewrite /aIbJ scale0r addr0. have e' : aIbJ 2 1 0 = 1%:M by rewrite /aIbJ scale0r addr0.
  have k5 : fifth *+ 5 = 1 by rewrite -mulr_natl /fifth divff. have k3 : third *+ 3 = 1 by rewrite -mulr_natl /third divff.
  rewrite !aIbJ_mul !mulr1 !mul1r -e -e' !mulr_natl. split; congr (aIbJ _ _ _).
  - rewrite -k5 !mulrS !mulr0n; to_K (ComplexField.complex_fieldType R); ring.
  - rewrite -{1}k3 !mulrS !mulr0n; to_K (ComplexField.complex_fieldType R); ring.
  - have -> : third - fifth = third * (fifth *+ 5) - fifth * (third *+ 3) by rewrite k5 k3 !mulr1. rewrite !mulrS !mulr0n; to_K (ComplexField.complex_fieldType R); ring.
  - rewrite -k3 !mulrS !mulr0n; to_K (ComplexField.complex_fieldType R); ring.
Qed.
Let Fd1 (_ : Z) : 'M[C]_4 := const_mx fifth. Let Fm1 (_ : Z) : 'M[C]_4 := const_mx third.
Let run1 (n : R) := @local_sde_from_g2 R 1 1 (g2_of true (aIbJ 2 1 (- fifth))) (g2_of false (aIbJ 2 1 (- third))) (frow 2 G1) 1 1 n (Matsubara.wn 0 0 false).
Example C95_example n : exists r, run1 n = Ok r /\
  lr_gamma_dens r = [:: const_mx 1] /\ lr_gamma_magn r = [:: const_mx (- 1)] /\
  lr_chi_dens r = [:: 4%:R / 5%:R] /\ lr_chi_magn r = [:: - (4%:R / 3%:R)] /\
  lr_siw r = [seq n%:C / 2%:R - 4%:R / 15%:R * G1 (@fq 2 v) | v <- enum 'I_4].
Proof.
  have [l1 l2 l3 l4] := ladders4.
  have h5 : (5%:R : C) != 0 by rewrite pnatr_eq0. have h3 : (3%:R : C) != 0 by rewrite pnatr_eq0.
  have k5 : fifth *+ 5 = 1 by rewrite -mulr_natl /fifth divff. have k3 : third *+ 3 = 1 by rewrite -mulr_natl /third divff.
  have [||r [er [[h1 h2 h3' h4] [_ h6]]]] := @C95_local_run 1 1 1 1 n 0 2 G1 (fun _ => const_mx 1) (fun _ => const_mx (- 1)) (fun _ => aIbJ 2 1 (- fifth)) (fun _ => aIbJ 2 1 (- third))
    (fun _ => aIbJ 4 1 (- fifth)) (fun _ => aIbJ 4 1 (- third)) Fd1 Fm1 (g2_of true (aIbJ 2 1 (- fifth))) (g2_of false (aIbJ 2 1 (- third))).
  - split; first by split=> //; exact: oner_neq0.
    split; [| | |exact: g2_of_ok|exact: g2_of_ok].
    + move=> v. rewrite /G1. case: (Z.leb_spec 0 v) => ?; case: (Z.leb_spec 0 (- v - 1)) => ?; try lia; by apply/eqP; rewrite eq_complex /= ?oppr0 ?opprK !eqxx.
    + move=> v _. rewrite /G1. case: ifP => _; by rewrite ?oppr_eq0 eq_complex /= negb_and oner_neq0 orbT.
    + move=> w hw. have -> : w = 0%Z by lia. split; rewrite beta1.
      * have := @solves1 1 (- fifth) l1. rewrite opprK. apply. rewrite mulrN mulr_natl -k5 mulrS addrK. by rewrite invr_eq0.
      * have := @solves1 (-1) (- third) l2. rewrite opprK. apply. rewrite mulrN mulr_natl mulrS opprD addrCA k3 subrr addr0. by rewrite oppr_eq0 invr_eq0.
  - move=> w hw. have -> : w = 0%Z by lia. split; [exact: regular1 l1 l3|exact: regular1 l2 l4].
  - exists r. split=> //. rewrite h1 h2 h3' h4 h6 /= !beta1 expr1n invr1 !scale1r. do 2 (split=> //). split; [|split].
    + congr [:: _]. rewrite /phys expr1n invr1 mul1r sum_aIbJ. congr (_ * _). rewrite mulrN mulr_natl -{1}k5 mulrS addrK. by [].
    + congr [:: _]. rewrite /phys expr1n invr1 mul1r sum_aIbJ -mulrN. congr (_ * _). by rewrite mulrN mulr_natl [third *+ 4]mulrS opprD addrCA k3 subrr addr0.
    + apply: eq_map => v. rewrite /equation_of_motion /Fd1 /Fm1 !beta1 expr1n divr1 !mul1r. congr (_ - _).
      rewrite -[arange _ _]/[:: 0%Z] big_seq1. under eq_bigr do rewrite !mxE Z.sub_0_r -[X in X * _]mulrA G1sq mulrN1. rewrite sumr_const card_ord Z.sub_0_r.
      have -> : 4%:R / 15%:R = (fifth * third) *+ 4 :> C by rewrite -[15%nat]/(5 * 3)%nat natrM invfM mulr_natl.
      have -> : fifth - third = - (fifth * third) *+ 2.
        have -> : fifth - third = fifth * (third *+ 3) - third * (fifth *+ 5) by rewrite k5 k3 !mulr1. rewrite !mulrS !mulr0n; to_K (ComplexField.complex_fieldType R); ring.
      by rewrite -[X in X / _]mulr_natr mulfK ?pnatr_eq0 // opprK mulrnAl.
Qed.
End C95.
Print Assumptions C95_local_run.
Print Assumptions C95_singular_raises.
Print Assumptions C95_chir_uasympt_finding.
Print Assumptions C95_uasympt_q_finding.
