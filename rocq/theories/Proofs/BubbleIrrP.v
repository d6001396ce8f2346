(** Lattice bubbles at the irreducible momenta. *)
From mathcomp Require Import all_ssreflect all_algebra.
From mathcomp.real_closed Require Import complex.
From Coq Require Import String ZArith Lia.
From Verif Require Import Base.PyBase Base.PyFacts Base.FieldTac Base.Arr Model.Matsubara Proofs.MatsubaraP Model.TwoPoint Spec.TwoPointSpec.
From Verif Require Import Spec.BZSpec Proofs.IrrqP.
From Verif Require Model.BrillouinZone.
From Verif Require Import Model.Bubble Spec.BubbleSpec.
From Verif Require Import Proofs.TwoPointP Proofs.TwoPointFillP Proofs.BubbleP Proofs.BubbleLatP.
Import Order.TTheory GRing.Theory Num.Theory.
Set Implicit Arguments. Unset Strict Implicit. Unset Printing Implicit Defensive.
Local Open Scope ring_scope.
Local Open Scope complex_scope.

Lemma neg_mod_add n a b : (0 < n)%Z -> ((- ((a + b) mod n)) mod n = ((- a) mod n + (- b) mod n) mod n)%Z.
Proof.
  move=> Hn. rewrite -Z.add_mod; [|lia]. rewrite -(Z.sub_0_l (_ mod _)) Zminus_mod_idemp_r. f_equal. lia.
Qed.
Lemma neg_mod_inj n a b : (0 <= a < n)%Z -> (0 <= b < n)%Z -> ((- a) mod n = (- b) mod n)%Z -> a = b.
Proof.
  move=> Ha Hb E. have H : forall c, (0 <= c < n -> (- ((- c) mod n)) mod n = c)%Z.
  { move=> c Hc. rewrite -(Z.sub_0_l (_ mod _)) Zminus_mod_idemp_r. rewrite (_ : 0 - - c = c)%Z; [|lia]. exact: Z.mod_small. }
  by rewrite -(H a Ha) -(H b Hb) E.
Qed.
Section Irr.
Variables nx ny nz : nat.
Notation K := (mesh nx ny nz).
Notation NX := (Z.of_nat nx). Notation NY := (Z.of_nat ny). Notation NZ := (Z.of_nat nz).
Lemma qpoint_mesh (k : K) : on_mesh NX NY NZ (qpoint k).
Proof. case: k => [[a b] c]. have /ssrnat.ltP H1 := ltn_ord a. have /ssrnat.ltP H2 := ltn_ord b. have /ssrnat.ltP H3 := ltn_ord c. rewrite /on_mesh /qpoint /=. lia. Qed.
Definition of_point (k : K) (p : point) : K := (insubd k.1.1 (Z.to_nat p.1.1), insubd k.1.2 (Z.to_nat p.1.2), insubd k.2 (Z.to_nat p.2)).
Lemma of_pointK (k : K) p : on_mesh NX NY NZ p -> qpoint (of_point k p) = p.
Proof.
  case: p => [[x y] z] [H1 [H2 H3]]. rewrite /of_point /qpoint /=. rewrite !val_insubd.
  have -> : (Z.to_nat x < nx)%nat by apply/ssrnat.ltP; lia. have -> : (Z.to_nat y < ny)%nat by apply/ssrnat.ltP; lia. have -> : (Z.to_nat z < nz)%nat by apply/ssrnat.ltP; lia.
  by rewrite !Z2Nat.id; lia || done.
Qed.
Lemma qpoint_inj : injective (@qpoint nx ny nz).
Proof.
  move=> [[a b] c] [[a' b'] c']. rewrite /qpoint /= => -[] /Nat2Z.inj Ea /Nat2Z.inj Eb /Nat2Z.inj Ec. by rewrite (ord_inj Ea) (ord_inj Eb) (ord_inj Ec).
Qed.
Lemma point_op_inj s p p' : on_mesh NX NY NZ p -> on_mesh NX NY NZ p' -> point_op NX NY NZ s p = point_op NX NY NZ s p' -> p = p'.
Proof.
  case: p => [[x y] z]. case: p' => [[x' y'] z'] [H1 [H2 H3]] [H1' [H2' H3']]. rewrite /point_op.
  have Ix := @neg_mod_inj NX x x' H1 H1'. have Iy := @neg_mod_inj NY y y' H2 H2'. have Iz := @neg_mod_inj NZ z z' H3 H3'.
  case: String.eqb => [[/Ix -> -> ->] //|]. case: String.eqb => [[-> /Iy -> ->] //|]. case: String.eqb => [[-> -> /Iz ->] //|].
  case: String.eqb; [case: Z.eqb => -[-> -> ->] //|]. case: String.eqb => [[/Ix -> /Iy -> ->] //|]. by [].
Qed.
Lemma qpoint_plus (k : K) q : qpoint (kplusq k q) = (((Z.of_nat k.1.1 + q.1.1) mod NX)%Z, ((Z.of_nat k.1.2 + q.1.2) mod NY)%Z, ((Z.of_nat k.2 + q.2) mod NZ)%Z).
Proof.
  have [H1 [H2 H3]] := qpoint_mesh k. rewrite /qpoint /kplusq /=. rewrite !Z2Nat.id //; apply: (proj1 (Z.mod_pos_bound _ _ _)); lia.
Qed.
Lemma point_op_add s (k : K) q : on_mesh NX NY NZ q ->
  point_op NX NY NZ s (qpoint (kplusq k q)) = qpoint (kplusq (of_point k (point_op NX NY NZ s (qpoint k))) (point_op NX NY NZ s q)).
Proof.
  move=> Hq. have Hk := qpoint_mesh k. have [Hx [Hy Hz]] := Hk. have Hpos : (0 < NX /\ 0 < NY /\ 0 < NZ)%Z by lia. case: Hpos => Px [Py Pz].
  have E := of_pointK k (@point_op_mesh NX NY NZ s _ Px Py Pz Hk). rewrite !qpoint_plus.
  set k' := of_point _ _ in E *. have E1 : Z.of_nat k'.1.1 = (point_op NX NY NZ s (qpoint k)).1.1 by rewrite -E. have E2 : Z.of_nat k'.1.2 = (point_op NX NY NZ s (qpoint k)).1.2 by rewrite -E.
  have E3 : Z.of_nat k'.2 = (point_op NX NY NZ s (qpoint k)).2 by rewrite -E.
  rewrite E1 E2 E3. case: q Hq => [[qx qy] qz] [Q1 [Q2 Q3]]. rewrite /qpoint /point_op /=.
  case: String.eqb => /=; first by rewrite neg_mod_add. case: String.eqb => /=; first by rewrite neg_mod_add. case: String.eqb => /=; first by rewrite neg_mod_add.
  case: String.eqb => /=; first by case: Z.eqb_spec => [->|] /=. by case: String.eqb => /=; first by rewrite !neg_mod_add.
Qed.
Variable R : rcfType.
Notation C := R[i].
Variables (G : K -> Z -> C) (beta : R).
Lemma qbub_point_op s c q w v : has_symmetry G s -> on_mesh NX NY NZ q -> qbub beta G c (point_op NX NY NZ s q) w v = qbub beta G c q w v.
Proof.
  move=> Hs Hq. have Pq : (0 < NX /\ 0 < NY /\ 0 < NZ)%Z by case: q Hq => [[a b] c'] [? [? ?]]; lia. case: Pq => Px [Py Pz].
  pose S (k : K) := of_point k (point_op NX NY NZ s (qpoint k)).
  have ES : forall k, qpoint (S k) = point_op NX NY NZ s (qpoint k) by move=> k; apply: of_pointK; apply: point_op_mesh => //; exact: qpoint_mesh.
  apply: (@qbub_sym _ _ _ _ _ _ S).
  - move=> k k' E. apply: qpoint_inj. apply: (@point_op_inj s); [exact: qpoint_mesh|exact: qpoint_mesh|]. by rewrite -!ES E.
  - move=> k. apply: qpoint_inj. rewrite ES. exact: point_op_add.
  - move=> k v'. exact: Hs (ES k).
Qed.
Lemma bubble_irr syms g irrq N niv wn c : (0 < nx)%nat -> (0 < ny)%nat -> (0 < nz)%nat -> Forall known syms -> BrillouinZone.make_kgrid NX NY NZ syms = Ok g ->
  BrillouinZone.get_irrq_list g = Ok irrq -> (forall s, In s syms -> has_symmetry G s) -> (0 <= niv)%Z -> wn <> nil -> (forall w, In w wn -> (niv + Z.abs w <= N)%Z) ->
  exists irr f, [/\ vec_get_gchi0_q (fun k => frow N (G k)) (2 * N) beta niv wn irrq (name c) false = Ok irr, BrillouinZone.map_irrk2fbz g irr = Ok f, shape3 f NX NY NZ &
    forall q, on_mesh NX NY NZ q -> at3 f q = Some (map (fun w => frow niv (qbub beta G c q w)) wn)].
Proof.
  move=> /ssrnat.ltP Hx /ssrnat.ltP Hy /ssrnat.ltP Hz Hk Eg Eq Hs Hn Hw HN. 
  have [||||f [Ef [Sf Gf]]] := @irrq_unfold _ NX NY NZ syms g (fun q => map (fun w => frow niv (qbub beta G c q w)) wn) irrq _ _ _ Hk Eg Eq; try lia.
  { move=> s k Hin Hkm. apply: List.map_ext => w. apply: frow_ext => v _. exact: qbub_point_op (Hs _ Hin) Hkm. }
  eexists; exists f; split; [exact: vec_gchi0_q_ok|exact: Ef|exact: Sf|exact: Gf].
Qed.
End Irr.
