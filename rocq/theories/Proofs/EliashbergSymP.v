(** Symmetries of the Eliashberg kernel and of the start gap. *)
From mathcomp Require Import all_ssreflect all_algebra.
From mathcomp.real_closed Require Import complex.
From Coq Require Import String ZArith Lia.
From Verif Require Import Base.PyBase Base.FieldTac Model.Config Model.Eliashberg Proofs.EliashbergP Proofs.EliashbergLoopP.
Import Order.Theory GRing.Theory Num.Theory.
Set Implicit Arguments. Unset Strict Implicit. Unset Printing Implicit Defensive.
Local Open Scope nat_scope.
Local Open Scope ring_scope.

(** index of -k on an axis of length n, and of -v on a frequency axis *)
Definition neg_k (n i : nat) : nat := ((n - i) %% n)%nat.
Definition neg_v (n v : nat) : nat := (n - 1 - v)%nat.
Lemma neg_k_lt n i : (0 < n)%nat -> (neg_k n i < n)%nat. Proof. exact: ltn_pmod. Qed.
Lemma neg_v_lt n v : (v < n)%nat -> (neg_v n v < n)%nat.
Proof. move=> h. rewrite /neg_v -subnDA add1n. case: n h => // n h. by rewrite subSS ltnS leq_subr. Qed.
Lemma neg_vK n v : (v < n)%nat -> neg_v n (neg_v n v) = v.
Proof. move=> h. rewrite /neg_v -!subnDA !add1n. case: n h => // n h. rewrite !subSS subKn //. Qed.
Lemma neg_kK n i : (i < n)%nat -> neg_k n (neg_k n i) = i.
Proof.
  rewrite /neg_k. case: i => [|i] h; first by rewrite subn0 modnn subn0 modnn.
  have h2 : (n - i.+1 < n)%nat by rewrite ltn_subrL /= (leq_ltn_trans _ h).
  rewrite (modn_small h2) subKn ?modn_small // ltnW //.
Qed.
Lemma sdiff_neg n i k : (i < n)%nat -> (k < n)%nat -> sdiff n (neg_k n i) (neg_k n k) = neg_k n (sdiff n i k).
Proof.
  move=> hi hk. rewrite /sdiff. have hn : (0 < n)%nat by exact: leq_ltn_trans hi.
  apply/esym. rewrite -(modn_small (neg_k_lt ((i + (n - k)) %% n) hn)). apply/eqP.
  have ha : (sdiff n i k < n)%nat by exact: sdiff_lt. rewrite /sdiff in ha.
  rewrite -(eqn_modDr (k + i)).
  set s := ((i + (n - k)) %% n)%nat. 
  have h1 : (neg_k n s + s == 0 %[mod n])%nat by rewrite /neg_k modnDml subnK 1?ltnW // modnn mod0n.
  have h2 : (s + k == i %[mod n])%nat by rewrite /s modnDml -addnA subnK 1?ltnW // modnDr.
  have h3 : (neg_k n i + i == 0 %[mod n])%nat by rewrite /neg_k modnDml subnK 1?ltnW // modnn mod0n.
  have h4 : (n - neg_k n k == k %[mod n])%nat.
    rewrite /neg_k. case: (posnP k) => [->|hk0]; first by rewrite subn0 modnn subn0 modnn mod0n.
    have hlt : (n - k < n)%nat by rewrite ltn_subrL hk0 hn.
    by rewrite (modn_small hlt) subKn // ltnW.
  apply/eqP.
  have -> : (neg_k n s + (k + i) = k + (neg_k n s + i))%nat by rewrite addnCA.
  have -> : (neg_k n i + (n - neg_k n k) + (k + i) = (n - neg_k n k) + k + (neg_k n i + i))%nat.
    rewrite [in RHS]addnACA. by rewrite [(n - _ + neg_k n i)%nat]addnC.
  rewrite -[RHS]modnDmr (eqP h3) mod0n addn0 -[RHS]modnDml (eqP h4) modnDml.
  rewrite -modnDmr -[in LHS]modnDmr.
  have -> : ((neg_k n s + i) %% n = k %% n)%nat.
    rewrite -modnDmr -(eqP h2) modnDmr addnA -modnDml (eqP h1) mod0n add0n //.
  by rewrite modn_mod modnDmr.
Qed.

Section Sym.
Variable R : rcfType.
Notation C := R[i].
Variables nx ny nz nv : nat.
Variables ex ey ez : C.
Hypothesis px : nx.-primitive_root ex.
Hypothesis py : ny.-primitive_root ey.
Hypothesis pz : nz.-primitive_root ez.
Notation T := ('I_nx * 'I_ny * 'I_nz)%type.
Notation K := (apply_kernel nx ny nz nv ex ey ez).
Notation geq := (@geq R nx ny nz nv).
Implicit Types (gamma : varr R) (gk gap : garr R) (norm s : C).

Lemma kernel_ext gamma gk norm (a b : garr R) : geq a b -> geq (K gamma gk norm a) (K gamma gk norm b).
Proof.
  move=> h x y z v hx hy hz hv. rewrite !kernelE //. congr (_ * _). apply: eq_ksum => i j l hi hj hl.
  apply: eq_bigr => v' _. by rewrite h.
Qed.

(** reindexing the mesh by -k *)
Lemma ksum_neg (f : karr R) : ksum nx ny nz f = ksum nx ny nz (fun i j l => f (neg_k nx i) (neg_k ny j) (neg_k nz l)).
Proof.
  have n1 := prim_order_gt0 px. have n2 := prim_order_gt0 py. have n3 := prim_order_gt0 pz.
  pose N1 (i : 'I_nx) : 'I_nx := Ordinal (neg_k_lt i n1).
  pose N2 (i : 'I_ny) : 'I_ny := Ordinal (neg_k_lt i n2).
  pose N3 (i : 'I_nz) : 'I_nz := Ordinal (neg_k_lt i n3).
  have k1 : involutive N1 by move=> i; apply: val_inj; rewrite /= neg_kK.
  have k2 : involutive N2 by move=> i; apply: val_inj; rewrite /= neg_kK.
  have k3 : involutive N3 by move=> i; apply: val_inj; rewrite /= neg_kK.
  rewrite /ksum (reindex_inj (inv_inj k1)). apply: eq_bigr => i _.
  rewrite (reindex_inj (inv_inj k2)). apply: eq_bigr => j _.
  by rewrite (reindex_inj (inv_inj k3)).
Qed.
Lemma vsum_neg (f : nat -> C) : \sum_(v < nv) f v = \sum_(v < nv) f (neg_v nv v).
Proof.
  rewrite (reindex_inj rev_ord_inj). apply: eq_bigr => v _ /=. by rewrite /neg_v -subnDA add1n.
Qed.

(** ** Momentum parity *)
Definition k_parity s gap : Prop := forall x y z v,
  (x < nx)%nat -> (y < ny)%nat -> (z < nz)%nat -> (v < nv)%nat ->
  gap (neg_k nx x) (neg_k ny y) (neg_k nz z) v = s * gap x y z v.
Definition gamma_inversion gamma : Prop := forall x y z v v',
  (x < nx)%nat -> (y < ny)%nat -> (z < nz)%nat -> (v < nv)%nat -> (v' < nv)%nat ->
  gamma (neg_k nx x) (neg_k ny y) (neg_k nz z) v v' = gamma x y z v v'.
Definition abs_inversion gk : Prop := forall x y z v,
  (x < nx)%nat -> (y < ny)%nat -> (z < nz)%nat -> (v < nv)%nat ->
  abs2 (gk (neg_k nx x) (neg_k ny y) (neg_k nz z) v) = abs2 (gk x y z v).
Lemma kernel_k_parity gamma gk norm s gap : gamma_inversion gamma -> abs_inversion gk ->
  k_parity s gap -> k_parity s (K gamma gk norm gap).
Proof.
  move=> hg ha hp x y z v hx hy hz hv.
  have n1 := prim_order_gt0 px. have n2 := prim_order_gt0 py. have n3 := prim_order_gt0 pz.
  rewrite !kernelE ?neg_k_lt // mulrCA. congr (_ * _).
  rewrite ksum_neg. transitivity (s * ksum nx ny nz (fun i j l => \sum_(v' < nv)
     gamma (sdiff nx i x) (sdiff ny j y) (sdiff nz l z) v v' * (gap i j l v' * abs2 (gk i j l v')))) => //.
  have -> : s * ksum nx ny nz (fun i j l => \sum_(v' < nv)
     gamma (sdiff nx i x) (sdiff ny j y) (sdiff nz l z) v v' * (gap i j l v' * abs2 (gk i j l v')))
    = ksum nx ny nz (fun i j l => s * \sum_(v' < nv)
     gamma (sdiff nx i x) (sdiff ny j y) (sdiff nz l z) v v' * (gap i j l v' * abs2 (gk i j l v'))).
    by rewrite /ksum; do 3 (rewrite mulr_sumr; apply: eq_bigr => ? _).
  apply: eq_ksum => i j l hi hj hl. rewrite mulr_sumr. apply: eq_bigr => v' _.
  rewrite !sdiff_neg // hg ?sdiff_lt // hp // ha //. by rewrite [in RHS]mulrCA !mulrA.
Qed.
Lemma k_parity_sub s (a b : garr R) : k_parity s a -> k_parity s b -> k_parity s (vsub a b).
Proof. move=> h1 h2 x y z v hx hy hz hv. by rewrite /vsub h1 // h2 // mulrBr. Qed.
Lemma k_parity_scale s c (a : garr R) : k_parity s a -> k_parity s (vscale c a).
Proof. move=> h1 x y z v hx hy hz hv. by rewrite /vscale h1 // mulrCA. Qed.

(** ** Frequency parity *)
Definition v_parity s gap : Prop := forall x y z v,
  (x < nx)%nat -> (y < ny)%nat -> (z < nz)%nat -> (v < nv)%nat ->
  gap x y z (neg_v nv v) = s * gap x y z v.
Definition gamma_v_inversion gamma : Prop := forall x y z v v',
  (x < nx)%nat -> (y < ny)%nat -> (z < nz)%nat -> (v < nv)%nat -> (v' < nv)%nat ->
  gamma x y z (neg_v nv v) (neg_v nv v') = gamma x y z v v'.
Definition abs_even gk : Prop := forall x y z v,
  (x < nx)%nat -> (y < ny)%nat -> (z < nz)%nat -> (v < nv)%nat ->
  abs2 (gk x y z (neg_v nv v)) = abs2 (gk x y z v).
(** parity in the second frequency only *)
Definition gamma_last_parity s gamma : Prop := forall x y z v v',
  (x < nx)%nat -> (y < ny)%nat -> (z < nz)%nat -> (v < nv)%nat -> (v' < nv)%nat ->
  gamma x y z v (neg_v nv v') = s * gamma x y z v v'.
Lemma kernel_v_parity gamma gk norm s gap : gamma_v_inversion gamma -> abs_even gk ->
  v_parity s gap -> v_parity s (K gamma gk norm gap).
Proof.
  move=> hg ha hp x y z v hx hy hz hv.
  have n1 := prim_order_gt0 px. have n2 := prim_order_gt0 py. have n3 := prim_order_gt0 pz.
  rewrite !kernelE // mulrCA. congr (_ * _).
  have -> : s * ksum nx ny nz (fun i j l => \sum_(v' < nv)
     gamma (sdiff nx i x) (sdiff ny j y) (sdiff nz l z) v v' * (gap i j l v' * abs2 (gk i j l v')))
    = ksum nx ny nz (fun i j l => s * \sum_(v' < nv)
     gamma (sdiff nx i x) (sdiff ny j y) (sdiff nz l z) v v' * (gap i j l v' * abs2 (gk i j l v'))).
    by rewrite /ksum; do 3 (rewrite mulr_sumr; apply: eq_bigr => ? _).
  apply: eq_ksum => i j l hi hj hl.
  rewrite (vsum_neg (fun v' => gamma (sdiff nx i x) (sdiff ny j y) (sdiff nz l z) (neg_v nv v) v' * (gap i j l v' * abs2 (gk i j l v')))).
  rewrite mulr_sumr. apply: eq_bigr => v' _.
  rewrite hg ?sdiff_lt // hp // ha //. by rewrite [in RHS]mulrCA !mulrA.
Qed.
Lemma v_parity_sub s (a b : garr R) : v_parity s a -> v_parity s b -> v_parity s (vsub a b).
Proof. move=> h1 h2 x y z v hx hy hz hv. by rewrite /vsub h1 // h2 // mulrBr. Qed.
Lemma v_parity_scale s c (a : garr R) : v_parity s a -> v_parity s (vscale c a).
Proof. move=> h1 x y z v hx hy hz hv. by rewrite /vscale h1 // mulrCA. Qed.

(** only the part of the gap with the parity of the vertex enters *)
Definition v_project s gap : garr R := fun x y z v => 2%:R^-1 * (gap x y z v + s * gap x y z (neg_v nv v)).
Lemma two0 : (2%:R : C) != 0. Proof. by rewrite pnatr_eq0. Qed.
Lemma kernel_projects gamma gk norm s gap : s * s = 1 -> gamma_last_parity s gamma -> abs_even gk ->
  geq (K gamma gk norm gap) (K gamma gk norm (v_project s gap)).
Proof.
  move=> hs hg ha x y z v hx hy hz hv.
  have n1 := prim_order_gt0 px. have n2 := prim_order_gt0 py. have n3 := prim_order_gt0 pz.
  rewrite !kernelE //. congr (_ * _). apply: eq_ksum => i j l hi hj hl.
  set a := sdiff nx i x. set b := sdiff ny j y. set c := sdiff nz l z.
  have la : (a < nx)%nat by exact: sdiff_lt. have lb : (b < ny)%nat by exact: sdiff_lt. have lc : (c < nz)%nat by exact: sdiff_lt.
  have e : \sum_(v' < nv) gamma a b c v v' * (gap i j l v' * abs2 (gk i j l v'))
         = \sum_(v' < nv) gamma a b c v v' * (s * gap i j l (neg_v nv v') * abs2 (gk i j l v')).
    rewrite (vsum_neg (fun v' => gamma a b c v v' * (gap i j l v' * abs2 (gk i j l v')))).
    apply: eq_bigr => v' _. rewrite hg // ha //. by rewrite !mulrA (mulrC s).
  apply: (mulfI two0). rewrite mulr_natl mulr2n {2}e -big_split mulr_sumr. apply: eq_bigr => v' _ /=.
  rewrite /v_project -mulrDr -mulrDl. set X := gap _ _ _ _ + _. set Y := gamma _ _ _ _ _. set Z := abs2 _.
  by rewrite -(mulrA (2%:R^-1) X Z) (mulrCA Y (2%:R^-1) (X * Z)) mulVKf // two0.
Qed.
Lemma kernel_annihilates gamma gk norm s gap : s * s = 1 -> gamma_last_parity s gamma -> abs_even gk ->
  v_parity (- s) gap -> geq (K gamma gk norm gap) (fun _ _ _ _ => 0).
Proof.
  move=> hs hg ha hp x y z v hx hy hz hv. rewrite (kernel_projects norm gap hs hg ha) // kernelE //.
  rewrite (_ : ksum _ _ _ _ = 0) ?mulr0 //.
  rewrite /ksum big1 // => i _; rewrite big1 // => j _; rewrite big1 // => l _; rewrite big1 // => v' _.
  have -> : v_project s gap i j l v' = 0; last by rewrite mul0r mulr0.
  by rewrite /v_project hp // (mulrA s) mulrN hs mulN1r subrr mulr0.
Qed.

(** ** symmetrize_gamma *)
Definition chan_sign (channel : string) : C := if String.eqb channel "sing" then 1 else -1.
Lemma sym_ok gamma ch g : symmetrize_gamma nv gamma ch = Ok g ->
  forall x y z v v', g x y z v v' = 2%:R^-1 * (gamma x y z v v' + chan_sign ch * gamma x y z v (neg_v nv v')).
Proof.
  rewrite /symmetrize_gamma /chan_sign. case: (String.eqb ch "sing").
  - by case=> <- x y z v v'; rewrite mul1r.
  - case: (String.eqb ch "trip") => //. by case=> <- x y z v v'; rewrite mulN1r.
Qed.
Lemma chan_sign2 ch : chan_sign ch * chan_sign ch = 1.
Proof. rewrite /chan_sign; case: ifP => _; by rewrite ?mulr1 // mulrNN mulr1. Qed.
Lemma sym_parity gamma ch g : symmetrize_gamma nv gamma ch = Ok g -> gamma_last_parity (chan_sign ch) g.
Proof.
  move=> h x y z v v' _ _ _ _ hv'. rewrite !(sym_ok h) neg_vK // mulrCA. congr (_ * _).
  by rewrite mulrDr mulrA chan_sign2 mul1r addrC.
Qed.
Lemma sym_idem gamma ch g g' : symmetrize_gamma nv gamma ch = Ok g -> symmetrize_gamma nv g ch = Ok g' ->
  forall x y z v v', (v' < nv)%nat -> g' x y z v v' = g x y z v v'.
Proof.
  move=> h h' x y z v v' hv'. rewrite (sym_ok h') !(sym_ok h) neg_vK //.
  set A := gamma _ _ _ _ _. set B := gamma _ _ _ _ _.
  rewrite [chan_sign ch * (_ * _)]mulrCA -mulrDr. congr (_ * _).
  rewrite (mulrDr (chan_sign ch)) (mulrA (chan_sign ch)) chan_sign2 mul1r (addrC (chan_sign ch * B)).
  set X : C := A + _. by rewrite -(mulr2n X) -(mulr_natl X 2) mulrA mulVf ?two0 // mul1r.
Qed.
End Sym.
