(** The kernel applied through FFTs is a momentum convolution. *)
From mathcomp Require Import all_ssreflect all_algebra.
From mathcomp.real_closed Require Import complex.
From Coq Require Import String ZArith.
From Verif Require Import Base.PyBase Base.FieldTac Model.Config Model.Eliashberg.
Import Order.Theory GRing.Theory Num.Theory.
Set Implicit Arguments. Unset Strict Implicit. Unset Printing Implicit Defensive.
Local Open Scope nat_scope.
Local Open Scope ring_scope.

(** ** One dimension *)
Section Orth.
Variable F : fieldType.
Lemma geom0 (r : F) n : r != 1 -> r ^+ n = 1 -> \sum_(x < n) r ^+ x = 0.
Proof.
  move=> h e. have := subrX1 r n. rewrite e subrr => /esym/eqP.
  rewrite mulf_eq0 subr_eq0 (negPf h) /=. by move/eqP.
Qed.
Lemma prim0 n (e : F) : n.-primitive_root e -> e != 0.
Proof.
  move=> he. have hn := prim_order_gt0 he. apply/eqP => h; move: (prim_expr_order he). rewrite h expr0n.
  rewrite eqn0Ngt hn /= => /esym/eqP. by rewrite oner_eq0.
Qed.
Lemma orth1 n (e : F) (k q k' : nat) : n.-primitive_root e ->
  \sum_(x < n) (e ^+ (x * k))^-1 * (e ^+ (q * x))^-1 * e ^+ (k' * x)
  = (n%:R) * ((k + q == k' %[mod n])%nat)%:R.
Proof.
  move=> he. have hn := prim_order_gt0 he. have e0 : e != 0 by exact: prim0 he.
  pose r := e ^+ k' / e ^+ (k + q).
  have -> : \sum_(x < n) (e ^+ (x * k))^-1 * (e ^+ (q * x))^-1 * e ^+ (k' * x) = \sum_(x < n) r ^+ x.
    apply: eq_bigr => x _. rewrite /r expr_div_n -!exprM mulrC -invfM -exprD. congr (_ / e ^+ _).
    by rewrite mulnDl (mulnC x).
  have hr : (r == 1) = (k + q == k' %[mod n])%nat.
    rewrite -(eq_prim_root_expr he). have hp := expf_neq0 (k + q) e0. apply/eqP/eqP => h.
    - by rewrite -[RHS](divfK hp) -/r h mul1r.
    - by rewrite /r -h divff.
  case hm: (k + q == k' %[mod n])%nat hr => /= hr.
  - rewrite (eqP hr). rewrite (eq_bigr (fun=> 1)); last by move=> x _; rewrite expr1n.
    by rewrite sumr_const card_ord mulr1.
  - rewrite mulr0. apply: geom0; first by rewrite hr.
    by rewrite /r expr_div_n -!exprM !(mulnC _ n) !exprM (prim_expr_order he) !expr1n divr1.
Qed.
End Orth.

Section Conv.
Variable R : rcfType.
Notation C := R[i].
Variables nx ny nz nv : nat.
Variables ex ey ez : C.
Hypothesis px : nx.-primitive_root ex.
Hypothesis py : ny.-primitive_root ey.
Hypothesis pz : nz.-primitive_root ez.
Notation T := ('I_nx * 'I_ny * 'I_nz)%type.
Notation ksum := (ksum nx ny nz).
Notation phase := (phase ex ey ez).

Lemma ksumT (f : karr R) : ksum f = \sum_(t : T) f t.1.1 t.1.2 t.2.
Proof.
  rewrite /Eliashberg.ksum.
  rewrite -(pair_bigA _ (fun (p : 'I_nx * 'I_ny) (l : 'I_nz) => f p.1 p.2 l)) /=.
  by rewrite -(pair_bigA _ (fun (i : 'I_nx) (j : 'I_ny) => \sum_(l < nz) f i j l)).
Qed.
Lemma ksum_prod (a b c : nat -> C) :
  ksum (fun i j l => a i * b j * c l) = (\sum_(i < nx) a i) * (\sum_(j < ny) b j) * (\sum_(l < nz) c l).
Proof.
  rewrite /Eliashberg.ksum mulr_suml mulr_suml. apply: eq_bigr => i _.
  rewrite [X in _ = X * _]mulr_sumr mulr_suml. apply: eq_bigr => j _. by rewrite mulr_sumr.
Qed.
Lemma eq_ksum (f g : karr R) :
  (forall i j l, (i < nx)%nat -> (j < ny)%nat -> (l < nz)%nat -> f i j l = g i j l) -> ksum f = ksum g.
Proof. move=> h. apply: eq_bigr => i _; apply: eq_bigr => j _; apply: eq_bigr => l _. exact: h. Qed.

Definition sdiff (n k' k : nat) : nat := ((k' + (n - k)) %% n)%nat.
Lemma sdiff_lt n k' k : (0 < n)%nat -> (sdiff n k' k < n)%nat.
Proof. exact: ltn_pmod. Qed.
Lemma modE n k q k' : (k < n)%nat -> (q < n)%nat -> (k' < n)%nat ->
  (k + q == k' %[mod n])%nat = (q == sdiff n k' k).
Proof.
  move=> hk hq hk'. have hn : (0 < n)%nat by exact: leq_ltn_trans hk.
  apply/eqP/eqP => [h|->].
  - rewrite /sdiff -(modn_small hq). apply/eqP. rewrite -(eqn_modDl k) addnCA subnKC 1?ltnW // modnDr. by apply/eqP.
  - by rewrite /sdiff modnDmr addnCA subnKC 1?ltnW // modnDr.
Qed.
Lemma nx0 : (0 < nx)%nat. Proof. exact: prim_order_gt0 px. Qed.
Lemma ny0 : (0 < ny)%nat. Proof. exact: prim_order_gt0 py. Qed.
Lemma nz0 : (0 < nz)%nat. Proof. exact: prim_order_gt0 pz. Qed.

Lemma orth3 k1 k2 k3 q1 q2 q3 s1 s2 s3 :
  ksum (fun x y z => (phase x y z k1 k2 k3)^-1 * (phase q1 q2 q3 x y z)^-1 * phase s1 s2 s3 x y z)
  = (nx * ny * nz)%nat%:R * ([&& k1 + q1 == s1 %[mod nx], k2 + q2 == s2 %[mod ny] & k3 + q3 == s3 %[mod nz]]%nat)%:R.
Proof.
  have -> : [&& k1 + q1 == s1 %[mod nx], k2 + q2 == s2 %[mod ny] & k3 + q3 == s3 %[mod nz]]%nat%:R
    = ((k1 + q1 == s1 %[mod nx])%nat)%:R * ((k2 + q2 == s2 %[mod ny])%nat)%:R * ((k3 + q3 == s3 %[mod nz])%nat)%:R :> C.
    by case: (_ == _ %[mod nx])%nat; case: (_ == _ %[mod ny])%nat; case: (_ == _ %[mod nz])%nat;
      rewrite /= ?mulr0 ?mul0r ?mulr1.
  have h1 := orth1 k1 q1 s1 px. have h2 := orth1 k2 q2 s2 py. have h3 := orth1 k3 q3 s3 pz.
  rewrite !natrM. 
  have -> : forall a b c d e f : C, a * b * c * (d * e * f) = (a * d) * (b * e) * (c * f).
    by move=> a b c d e f; rewrite !mulrA -!(mulrAC _ d) -!(mulrAC _ e).
  rewrite -h1 -h2 -h3 -(ksum_prod (fun x => (ex ^+ (x * k1))^-1 * (ex ^+ (q1 * x))^-1 * ex ^+ (s1 * x))
    (fun x => (ey ^+ (x * k2))^-1 * (ey ^+ (q2 * x))^-1 * ey ^+ (s2 * x))
    (fun x => (ez ^+ (x * k3))^-1 * (ez ^+ (q3 * x))^-1 * ez ^+ (s3 * x))). apply: eq_ksum => i j l _ _ _.
  rewrite /Eliashberg.phase !invfM. 
  set a1 := (ex ^+ (i * k1))^-1. set a2 := (ex ^+ (q1 * i))^-1. set a3 := ex ^+ (s1 * i).
  set b1 := (ey ^+ (j * k2))^-1. set b2 := (ey ^+ (q2 * j))^-1. set b3 := ey ^+ (s2 * j).
  set c1 := (ez ^+ (l * k3))^-1. set c2 := (ez ^+ (q3 * l))^-1. set c3 := ez ^+ (s3 * l).
  by rewrite !mulrA -!(mulrAC _ a2) -!(mulrAC _ a3) -!(mulrAC _ b2) -!(mulrAC _ b3).
Qed.

Lemma conv1 (a h : karr R) k1 k2 k3 : (k1 < nx)%nat -> (k2 < ny)%nat -> (k3 < nz)%nat ->
  fftn nx ny nz ex ey ez (fun x y z => fftn nx ny nz ex ey ez a x y z * ifftn nx ny nz ex ey ez h x y z) k1 k2 k3
  = ksum (fun s1 s2 s3 => a (sdiff nx s1 k1) (sdiff ny s2 k2) (sdiff nz s3 k3) * h s1 s2 s3).
Proof.
  move=> l1 l2 l3. rewrite {1}/fftn. set N : C := (nx * ny * nz)%nat%:R.
  have hN : N != 0 by rewrite pnatr_eq0 -lt0n !muln_gt0 nx0 ny0 nz0.
  transitivity (N^-1 * \sum_(t : T) \sum_(q : T) \sum_(s : T)
     (a q.1.1 q.1.2 q.2 * h s.1.1 s.1.2 s.2) *
     ((phase t.1.1 t.1.2 t.2 k1 k2 k3)^-1 * (phase q.1.1 q.1.2 q.2 t.1.1 t.1.2 t.2)^-1 * phase s.1.1 s.1.2 s.2 t.1.1 t.1.2 t.2)).
    rewrite ksumT mulr_sumr. apply: eq_bigr => t _. rewrite /fftn /ifftn !ksumT -/N.
    rewrite mulrCA -mulrA. congr (_ * _). rewrite mulr_suml mulr_suml. apply: eq_bigr => q _.
    rewrite [X in X * _ = _]mulr_sumr mulr_suml. apply: eq_bigr => s _.
    set A := a _ _ _. set H := h _ _ _. set P1 := (phase _ _ _ _ _ _)^-1. set P2 := phase _ _ _ _ _ _. set P3 := (phase _ _ _ k1 k2 k3)^-1.
    by rewrite !mulrA -!(mulrAC _ H) -!(mulrAC _ P3).
  rewrite exchange_big /=.
  have -> : \sum_(q : T) \sum_(t : T) \sum_(s : T)
     (a q.1.1 q.1.2 q.2 * h s.1.1 s.1.2 s.2) *
     ((phase t.1.1 t.1.2 t.2 k1 k2 k3)^-1 * (phase q.1.1 q.1.2 q.2 t.1.1 t.1.2 t.2)^-1 * phase s.1.1 s.1.2 s.2 t.1.1 t.1.2 t.2)
    = \sum_(q : T) \sum_(s : T) (a q.1.1 q.1.2 q.2 * h s.1.1 s.1.2 s.2) *
       (N * ([&& q.1.1 == sdiff nx s.1.1 k1 :> nat, q.1.2 == sdiff ny s.1.2 k2 :> nat & q.2 == sdiff nz s.2 k3 :> nat])%:R).
    apply: eq_bigr => q _. rewrite exchange_big /=. apply: eq_bigr => s _. rewrite -mulr_sumr. congr (_ * _).
    rewrite -(modE l1 (ltn_ord q.1.1) (ltn_ord s.1.1)) -(modE l2 (ltn_ord q.1.2) (ltn_ord s.1.2)) -(modE l3 (ltn_ord q.2) (ltn_ord s.2)).
    by rewrite -orth3 ksumT.
  rewrite exchange_big /= mulr_sumr ksumT. apply: eq_bigr => s _.
  pose q0 : T := (Ordinal (sdiff_lt s.1.1 k1 nx0), Ordinal (sdiff_lt s.1.2 k2 ny0), Ordinal (sdiff_lt s.2 k3 nz0)).
  rewrite (bigD1 q0) //= !eqxx /= mulr1 big1 ?addr0.
  - by rewrite mulrCA mulVf // mulr1.
  - move=> q hq. case: and3P => [[/eqP e1 /eqP e2 /eqP e3]|_]; last by rewrite !mulr0.
    exfalso. move/negP: hq; apply. apply/eqP. case: q e1 e2 e3 => [[q1 q2] q3] /= e1 e2 e3.
    by congr (_, _, _); apply: val_inj.
Qed.

Lemma kernelE gamma gk norm gap x y z v : (x < nx)%nat -> (y < ny)%nat -> (z < nz)%nat ->
  apply_kernel nx ny nz nv ex ey ez gamma gk norm gap x y z v
  = norm^-1 * ksum (fun i j l => \sum_(v' < nv)
       gamma (sdiff nx i x) (sdiff ny j y) (sdiff nz l z) v v' * (gap i j l v' * abs2 (gk i j l v'))).
Proof.
  move=> hx hy hz. rewrite /apply_kernel.
  transitivity (norm^-1 * \sum_(v' < nv) fftn nx ny nz ex ey ez (fun x y z =>
     fftn nx ny nz ex ey ez (fun i j l => gamma i j l v v') x y z *
     ifftn nx ny nz ex ey ez (fun i j l => gap i j l v' * abs2 (gk i j l v')) x y z) x y z).
    rewrite {1}/fftn ksumT. under eq_bigr do rewrite div1r -mulrA big_distrl /=.
    rewrite -mulr_sumr exchange_big /=. congr (_ * _). apply: eq_bigr => v' _. by rewrite [RHS]/fftn ksumT.
  congr (_ * _). under eq_bigr do rewrite conv1 //. rewrite ksumT.
  under eq_bigr do rewrite ksumT. by rewrite exchange_big.
Qed.
End Conv.
