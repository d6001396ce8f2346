(** Lattice bubbles of Model/Bubble.v: averages over q, symmetries. *)
From mathcomp Require Import all_ssreflect all_algebra.
From mathcomp.real_closed Require Import complex.
From Coq Require Import String ZArith Lia.
From Verif Require Import Base.PyBase Base.PyFacts Base.FieldTac Model.Matsubara Proofs.MatsubaraP Model.TwoPoint Model.Bubble Spec.TwoPointSpec Spec.BubbleSpec.
From Verif Require Import Proofs.TwoPointP Proofs.TwoPointFillP Proofs.BubbleP.
Import Order.TTheory GRing.Theory Num.Theory.
Set Implicit Arguments. Unset Strict Implicit. Unset Printing Implicit Defensive.
Local Open Scope ring_scope.
Local Open Scope complex_scope.

Lemma mod_inj n a b c : (0 <= b < n)%Z -> (0 <= c < n)%Z -> ((a + b) mod n = (a + c) mod n)%Z -> b = c.
Proof.
  move=> Hb Hc E. have E1 := Z.div_mod (a + b) n ltac:(lia). have E2 := Z.div_mod (a + c) n ltac:(lia). rewrite E in E1.
  set x := ((a + b) / n)%Z in E1. set y := ((a + c) / n)%Z in E2. have Ed : (b - c = n * (x - y))%Z by lia. have [Exy|Hne] := Z.eq_dec x y; nia.
Qed.
Lemma addq_inj n (i j j' : 'I_n) : addq (Z.of_nat j) i = addq (Z.of_nat j') i -> j = j'.
Proof.
  move=> E. have /ssrnat.ltP Hi := ltn_ord i. have /ssrnat.ltP Hj := ltn_ord j. have /ssrnat.ltP Hj' := ltn_ord j'.
  apply: ord_inj. have E2 := congr1 (@nat_of_ord n) E. rewrite /= in E2. have H1 := Z.mod_pos_bound (Z.of_nat i + Z.of_nat j) (Z.of_nat n) ltac:(lia).
  have H2 := Z.mod_pos_bound (Z.of_nat i + Z.of_nat j') (Z.of_nat n) ltac:(lia). apply: Nat2Z.inj. apply: (@mod_inj (Z.of_nat n) (Z.of_nat i)); lia.
Qed.
Lemma addq_inj_l n (q : Z) (i j : 'I_n) : addq q i = addq q j -> i = j.
Proof.
  move=> E. have /ssrnat.ltP Hi := ltn_ord i. have /ssrnat.ltP Hj := ltn_ord j.
  apply: ord_inj. have E2 := congr1 (@nat_of_ord n) E. rewrite /= in E2. have H1 := Z.mod_pos_bound (Z.of_nat i + q) (Z.of_nat n) ltac:(lia).
  have H2 := Z.mod_pos_bound (Z.of_nat j + q) (Z.of_nat n) ltac:(lia). apply: Nat2Z.inj. apply: (@mod_inj (Z.of_nat n) q); rewrite ?[(q + _)%Z]Z.add_comm; lia.
Qed.
Lemma addq_add n (q p : Z) (i : 'I_n) : addq q (addq p i) = addq (p + q) i.
Proof.
  apply: val_inj => /=. have /ssrnat.ltP Hi := ltn_ord i. rewrite Z2Nat.id; [|by have := Z.mod_pos_bound (Z.of_nat i + p) (Z.of_nat n) ltac:(lia); lia].
  by rewrite Z.add_mod_idemp_l ?Z.add_assoc //; lia.
Qed.
Lemma addq_mod n (q p : Z) (i : 'I_n) : ((q - p) mod Z.of_nat n = 0)%Z -> addq q i = addq p i.
Proof.
  move=> H. have /ssrnat.ltP Hi := ltn_ord i. apply: val_inj => /=. f_equal. rewrite (_ : Z.of_nat i + q = Z.of_nat i + p + (q - p))%Z; [|lia].
  by rewrite -Z.add_mod_idemp_r ?H ?Z.add_0_r //; lia.
Qed.
Lemma addq_0 n (i : 'I_n) : addq 0 i = i.
Proof. have /ssrnat.ltP Hi := ltn_ord i. apply: val_inj => /=. rewrite Z.add_0_r Z.mod_small; lia. Qed.
Section Mesh.
Variables nx ny nz : nat.
Notation K := (mesh nx ny nz).
Definition qadd (p q : Z * Z * Z) : Z * Z * Z := ((p.1.1 + q.1.1)%Z, (p.1.2 + q.1.2)%Z, (p.2 + q.2)%Z).
Lemma kplusq_inj_r (k : K) : injective (fun p : K => kplusq k (qpoint p)).
Proof.
  move=> [[a b] c] [[a' b'] c']. rewrite /kplusq /qpoint /=. move=> E. have Ea := congr1 (fun t : K => t.1.1) E. have Eb := congr1 (fun t : K => t.1.2) E. have Ec := congr1 (fun t : K => t.2) E.
  by rewrite (addq_inj Ea) (addq_inj Eb) (addq_inj Ec).
Qed.
Lemma kplusq_inj_l q : injective (fun k : K => kplusq k q).
Proof.
  move=> [[a b] c] [[a' b'] c']. rewrite /kplusq /=. move=> E. have Ea := congr1 (fun t : K => t.1.1) E. have Eb := congr1 (fun t : K => t.1.2) E. have Ec := congr1 (fun t : K => t.2) E.
  by rewrite (addq_inj_l Ea) (addq_inj_l Eb) (addq_inj_l Ec).
Qed.
Lemma kplusq_add (k : K) p q : kplusq (kplusq k p) q = kplusq k (qadd p q).
Proof. by rewrite /kplusq /= !addq_add. Qed.
Lemma kplusq_0 (k : K) : kplusq k (0, 0, 0)%Z = k.
Proof. case: k => [[a b] c]. by rewrite /kplusq /= !addq_0. Qed.
Lemma kplusq_neg (k : K) q : kplusq (kplusq k q) (qneg q) = k.
Proof. rewrite kplusq_add /qadd /qneg /= !Z.add_opp_diag_r. exact: kplusq_0. Qed.
Lemma kplusq_same (k : K) q p : same_q nx ny nz q p -> kplusq k q = kplusq k p.
Proof. move=> [H1 [H2 H3]]. by rewrite /kplusq (addq_mod _ H1) (addq_mod _ H2) (addq_mod _ H3). Qed.

Variable R : rcfType.
Notation C := R[i].
Variables (G : K -> Z -> C) (beta : R).
Notation NK := (#|{: K}|%:R : C).
(** average over all q *)
Lemma qbub_mean c w v : (\sum_(p : K) qbub beta G c (qpoint p) w v) / NK = bub beta (fun v => (\sum_(k : K) G k v) / NK) c w v.
Proof.
  rewrite /qbub /bub -big_distrr /= -big_distrl /= exchange_big /=. rewrite -!mulrA. congr (_ * _).
  transitivity ((\sum_(k : K) G k (v + sh1 c w)%Z) * (\sum_(p : K) G p (v + sh2 c w)%Z) / NK / NK); last by rewrite -!mulrA; congr (_ * _); rewrite mulrCA.
  rewrite mulrA. congr (_ / _ / _). rewrite big_distrl /=. apply: eq_bigr => k _. rewrite -big_distrr /=. congr (_ * _).
  by rewrite [RHS](reindex_inj (@kplusq_inj_r k)).
Qed.
(** symmetries *)
Lemma qbub_sym (S : K -> K) c q Sq w v : injective S -> (forall k, S (kplusq k q) = kplusq (S k) Sq) -> (forall k v, G (S k) v = G k v) ->
  qbub beta G c Sq w v = qbub beta G c q w v.
Proof.
  move=> HS Hadd HG. rewrite /qbub. congr (_ * (_ / _)). rewrite [LHS](reindex_inj HS) /=. apply: eq_bigr => k _. by rewrite -Hadd !HG.
Qed.
Lemma qbub_same c q p w v : same_q nx ny nz q p -> qbub beta G c q w v = qbub beta G c p w v.
Proof. move=> H. rewrite /qbub. congr (_ * (_ / _)). apply: eq_bigr => k _. by rewrite (kplusq_same _ H). Qed.
Lemma qbub_shift p c q w v : qbub beta (fun k => G (kplusq k p)) c q w v = qbub beta G c q w v.
Proof.
  rewrite /qbub. congr (_ * (_ / _)). rewrite [RHS](reindex_inj (@kplusq_inj_l p)) /=. apply: eq_bigr => k _.
  rewrite !kplusq_add. congr (_ * G _ _). rewrite /kplusq /qadd /=. congr (addq _ _, addq _ _, addq _ _); lia.
Qed.
Lemma qbub_cross_plus q w v : qbub beta G Plus (qneg q) (- w) (v + w)%Z = qbub beta G Plus q w v.
Proof.
  rewrite /qbub. congr (_ * (_ / _)). rewrite [LHS](reindex_inj (@kplusq_inj_l q)) /=. apply: eq_bigr => k _. rewrite kplusq_neg mulrC. congr (G _ _ * G _ _); lia.
Qed.
Lemma qbub_cross_minus q w v : qbub beta G Minus (qneg q) (- w) (v - w)%Z = qbub beta G Minus q w v.
Proof.
  rewrite /qbub. congr (_ * (_ / _)). rewrite [LHS](reindex_inj (@kplusq_inj_l q)) /=. apply: eq_bigr => k _. rewrite kplusq_neg mulrC. congr (G _ _ * G _ _); lia.
Qed.
(** G independent of k: the local bubble *)
Lemma qbub_local (g : Z -> C) c q w v : (0 < #|{: K}|)%nat -> (forall k v, G k v = g v) -> qbub beta G c q w v = bub beta g c w v.
Proof.
  move=> HK H. rewrite /qbub /bub (eq_bigr (fun=> g (v + sh1 c w)%Z * g (v + sh2 c w)%Z)) => [|k _]; [|by rewrite !H].
  rewrite sumr_const -[_ *+ _]mulr_natl mulrAC divff ?mul1r ?mulrA // pnatr_eq0. by rewrite -lt0n.
Qed.
End Mesh.
