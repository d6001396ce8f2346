(** Vocabulary for the local part of a run (nothing here models code). *)
From mathcomp Require Import all_ssreflect all_algebra.
From mathcomp.real_closed Require Import complex.
From Coq Require Import String ZArith.
From Verif Require Import Base.PyBase Base.Arr Spec.BseSpec Spec.BubbleSpec.
Import GRing.Theory Num.Theory.
Set Implicit Arguments. Unset Strict Implicit. Unset Printing Implicit Defensive.
Local Open Scope ring_scope.
Local Open Scope complex_scope.
Section S.
Variable R : rcfType.
Notation C := R[i].
(** the fermionic frequency index at position i of a box of 2n frequencies *)
Definition fq n (i : 'I_(n.*2)) : Z := (Z.of_nat i - Z.of_nat n)%Z.
(** -beta G(v) G(v-w) on such a box *)
Definition bubble_row n (beta : R) (G : Z -> C) (w : Z) : 'rV[C]_(n.*2) := \row_i (- beta%:C * G (fq i) * G (fq i - w)%Z).
(** the measured two-particle Green's function of a generalised susceptibility chi: chi/beta, and in the density channel at
    w = 0 the disconnected part 2 G G added back; positions nw + w, v, v' *)
Definition is_g2 nc (dens : bool) (beta : R) (nw : Z) (G : Z -> C) (chi : Z -> 'M[C]_(nc.*2)) (g2 : list (list (list C))) : Prop :=
  shape3 g2 (2 * nw + 1) (2 * Z.of_nat nc) (2 * Z.of_nat nc) /\
  forall w (i j : 'I_(nc.*2)), (- nw <= w <= nw)%Z ->
    get3 g2 (nw + w) (Z.of_nat i) (Z.of_nat j) = Some (chi w i j / beta%:C + (if dens && (w =? 0)%Z then 2%:R * G (fq i) * G (fq j) else 0)).
(** Chi, with vertex Gamma = gam on the core and u_r elsewhere, and its full vertex F: everything in units where Gamma and F carry
    their physical normalisation (the Bethe-Salpeter equation has 1/beta^2). *)
Definition solves nc ns (beta : R) (ur : C) (chi0 : 'rV[C]_((nc + ns).*2)) (gam core : 'M[C]_(nc.*2)) (chi F : 'M[C]_((nc + ns).*2)) : Prop :=
  (exists Gam, u_padded gam ur Gam /\ bethe_salpeter chi0 ((beta%:C ^+ 2)^-1 *: Gam) chi) /\ full_vertex chi0 ((beta%:C ^+ 2)^-1 *: F) chi /\
  core_block chi core /\ phys beta%:C chi != 0.
(** the ladders a run has to invert: the one with the bare interaction on the whole box (its core block must be invertible), the
    measured core susceptibility, and the core ladder with the interaction taken out of the vertex *)
Definition regular nc ns (beta : R) (ur : C) (chi0 : 'rV[C]_((nc + ns).*2)) (chi0c : 'rV[C]_(nc.*2)) (gam core : 'M[C]_(nc.*2)) : Prop :=
  (exists (T : 'M[C]_((nc + ns).*2)) (Tc : 'M[C]_(nc.*2)), bethe_salpeter chi0 (const_mx (ur / beta%:C ^+ 2)) T /\ core_block T Tc /\ exists S, Tc *m S = 1%:M) /\
  (exists S, core *m S = 1%:M) /\
  exists X, bethe_salpeter chi0c ((beta%:C ^+ 2)^-1 *: (gam - const_mx ur)) X.
(** equation of motion: U n/2 - U/beta^2 sum_{w,v'} (F_dens - F_magn)/2 G(v') G(v'-w) G(v-w) *)
Definition equation_of_motion n (beta u dens : R) (nw : Z) (G : Z -> C) (Fd Fm : Z -> 'M[C]_(n.*2)) (v : 'I_(n.*2)) : C :=
  u%:C * dens%:C / 2%:R - u%:C / beta%:C ^+ 2 * \sum_(w <- arange (- nw) (nw + 1)) \sum_v'
     ((Fd w v v' - Fm w v v') / 2%:R) * G (fq v') * G (fq v' - w)%Z * G (fq v - w)%Z.
(** g is the three-leg vertex v of the core and the non-interacting value 1 on the rest of the full box *)
Definition continued nc ns (v : 'rV[C]_(nc.*2)) (g : 'I_((nc + ns).*2) -> C) : Prop :=
  (forall i I, core_of i I -> g I = v 0 i) /\ (forall I, ~~ in_core I -> g I = 1).
End S.
