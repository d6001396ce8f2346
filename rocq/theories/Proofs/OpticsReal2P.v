(** Real-frequency optical conductivity: meshes with an even number of points, positivity, interpolation. *)
From mathcomp Require Import all_ssreflect all_algebra.
From mathcomp.real_closed Require Import complex.
From Coq Require Import ZArith Lia.
From Verif Require Import Base.PyBase Base.PyFacts Base.Arr Model.TwoPoint Model.Bubble Model.OpticsReal Spec.OpticsRealSpec Proofs.OpticsRealP.
Import Order.TTheory GRing.Theory Num.Theory.
Set Implicit Arguments. Unset Strict Implicit. Unset Printing Implicit Defensive.
Local Open Scope ring_scope.
Local Open Scope complex_scope.

Section Even.
Variable R : rcfType.
Notation C := R[i].
Notation zr := (@zr R).
Variables nx ny nz : nat.
Notation K := (mesh nx ny nz).
Variables (rexp : R -> R) (cpi h : R) (M : Z).
Hypotheses (Hh : 0 < h).
Notation W := (fun j => zr (2 * j + 1 - 2 * M) * h).
Lemma even_zero : (0 < M)%Z -> argminr (List.map (fun x => `|x|) (List.map W (arange 0 (2 * M)))) = Ok (M - 1)%Z.
Proof.
  move=> HM. rewrite (List.map_map W). have -> : List.map (fun j => `|W j|) (arange 0 (2 * M)) = List.map (fun j => `|W j - 0|) (arange 0 (2 * M)) by apply: List.map_ext => j; rewrite subr0.
  refine (@argmin_nearest R rexp W _ _ _ _ _ _); first lia.
  - move=> j Hj. split; first by apply: mulz_lt => //; lia. rewrite add0r -mulrDl -zrD -[X in _ < X](mul0r h) -(zr0 R). apply: mulz_lt => //. lia.
  - move=> j Hj. split; first by apply: mulz_lt => //; lia. rewrite add0r -mulrDl -zrD -[X in X <= _](mul0r h) -(zr0 R). apply: mulz_le => //. lia.
Qed.
Lemma even_max m wmax : (0 <= M + m < 2 * M)%Z -> zr (2 * m) * h < wmax -> wmax <= zr (2 * m + 2) * h ->
  argminr (List.map (fun x => `|x - wmax|) (List.map W (arange 0 (2 * M)))) = Ok (M + m)%Z.
Proof.
  move=> Hm H1 H2. rewrite (List.map_map W). refine (@argmin_nearest R rexp W _ _ _ _ _ _); first lia.
  - move=> j Hj. split; first by apply: mulz_lt => //; lia. rewrite -mulrDl -zrD. apply: (@le_lt_trans _ _ (zr (2 * m) * h + zr (2 * m) * h)); last exact: ltr_add.
    rewrite -mulrDl -zrD. apply: mulz_le => //. lia.
  - move=> j Hj. split; first by apply: mulz_lt => //; lia. rewrite -mulrDl -zrD. apply: (@le_trans _ _ (zr (2 * m + 2) * h + zr (2 * m + 2) * h)); first exact: ler_add.
    rewrite -mulrDl -zrD. apply: mulz_le => //. lia.
Qed.
Lemma realf_even_raises (gwk : K -> list C) a b beta m wmax : (1 <= m)%Z -> (M + m < 2 * M)%Z -> wmax < zr (2 * M - 1) * h -> zr (2 * m) * h < wmax -> wmax <= zr (2 * m + 2) * h ->
  vec_get_chijj_bubble_realf rexp cpi (List.map W (arange 0 (2 * M))) gwk a b beta wmax = Raise ValueError.
Proof.
  move=> Hm HM Hw H1 H2. rewrite /vec_get_chijj_bubble_realf.
  set w := List.map W (arange 0 (2 * M)). have Lw : zlen w = (2 * M)%Z by rewrite /w zlen_map zlen_arange; lia.
  have [mx Emx] : exists mx, maxr w = Ok mx. { apply: maxr_ok => Ew. move: Lw. rewrite Ew zlen_nil. lia. }
  rewrite Emx [bind _ _]/=. have Hin : List.In (zr (2 * M - 1) * h) w.
    rewrite /w. apply List.in_map_iff. exists (2 * M - 1)%Z. split; [congr (zr _ * _); lia|apply In_arange; lia].
  rewrite (lt_le_trans Hw (maxr_ge Emx Hin)) even_zero; last lia. cbn [bind]. rewrite (@even_max m); try by []; try lia. cbn [bind]. rewrite Lw.
  have -> : ((2 * M) mod 2 = 0)%Z by rewrite Z.mul_comm Z_mod_mult.
  have Ls : zlen (slice w (M - 1 + 1) (M + m)) = m by rewrite zlen_slice_in ?Lw; lia.
  case Ec : (mapM _ _) => [r|e]; last first.
    cbn [bind]. congr Raise. refine (@mapM_err _ _ _ _ _ (fun e => e = ValueError) _ Ec) => x e'. rewrite /chijj_realf_i. by case: ifP => _ // [<-].
  exfalso. have [Lr Gr] := mapM_zget _ _ Ec. rewrite zlen_enumerate Ls in Lr.
  have [wv Ewv] := @zget_in_range _ (slice w (M - 1 + 1) (M + m)) (m - 1)%Z ltac:(lia).
  have [x [Ex]] := Gr (m - 1)%Z (m - 1, wv)%Z ltac:(by rewrite zget_enumerate Ewv). rewrite [fst _]/= /chijj_realf_i Lw.
  have -> : (M - 1 + (2 * M - (M + m)) - (m - 1 + 1) = 2 * M - 1 - 2 * m)%Z by lia. have -> : (M - 1 - (2 * M - (M + m)) + 0 - (m - 1 + 1) = - 1)%Z by lia.
  rewrite [slice_len (2 * M) (_ + (m - 1 + 1)) _](slice_len_in rexp cpi); try lia.
  have -> : slice_len (2 * M) (- 1) (2 * M - 1 - 2 * m) = 0%Z by rewrite /slice_len /clampi; case: Z.ltb_spec => ?; case: Z.ltb_spec => ?; lia.
  have -> : (M - 1 + (2 * M - (M + m)) + (m - 1 + 1) - (M - 1 - (2 * M - (M + m)) + 0 + (m - 1 + 1)) =? 0 = false)%Z by apply/Z.eqb_neq; lia.
  by [].
Qed.
Lemma even_bracket n wmax : zr 2 * h < wmax -> wmax <= zr (2 * Z.of_nat n + 2) * h -> exists m, (1 <= m)%Z /\ zr (2 * m) * h < wmax /\ wmax <= zr (2 * m + 2) * h.
Proof.
  elim: n => [|n IH] H1 H2; first by move: (lt_le_trans H1 H2); rewrite ltxx.
  case: (leP wmax (zr (2 * Z.of_nat n + 2) * h)) => H; first exact: IH.
  exists (Z.of_nat n + 1)%Z. split; first lia. split; first by have -> : (2 * (Z.of_nat n + 1) = 2 * Z.of_nat n + 2)%Z by lia.
  by have -> : (2 * (Z.of_nat n + 1) + 2 = 2 * Z.of_nat n.+1 + 2)%Z by lia.
Qed.
Lemma realf_even_raises_all (gwk : K -> list C) a b beta wmax : zr 2 * h < wmax -> wmax < zr (2 * M - 1) * h ->
  vec_get_chijj_bubble_realf rexp cpi (List.map W (arange 0 (2 * M))) gwk a b beta wmax = Raise ValueError.
Proof.
  move=> H1 H2. have HM : (2 < 2 * M - 1)%Z. { case: (Z_lt_le_dec 2 (2 * M - 1)) => // H. have := lt_trans H1 H2. by rewrite ltNge mulz_le. }
  have [m [Hm [A B]]] := @even_bracket (Z.to_nat M) wmax H1 ltac:(apply: (le_trans (ltW H2)); apply: mulz_le => //; lia).
  apply: (@realf_even_raises gwk a b beta m wmax) => //. have : (2 * m < 2 * M - 1)%Z; last lia.
  case: (Z_lt_le_dec (2 * m) (2 * M - 1)) => // H. have := lt_trans A H2. by rewrite ltNge mulz_le.
Qed.
End Even.

Section Positive.
Variable R : rcfType.
Notation C := R[i].
Notation zr := (@zr R).
Variables nx ny nz : nat.
Notation K := ('I_nx * 'I_ny * 'I_nz)%type.
Lemma Im_add (x y : C) : complex.Im (x + y) = complex.Im x + complex.Im y. Proof. by case: x; case: y. Qed.
Lemma Im_sum (T : Type) (l : list T) (P : pred T) (f : T -> C) : complex.Im (\sum_(x <- l | P x) f x) = \sum_(x <- l | P x) complex.Im (f x).
Proof. elim: l => [|x l IH]; first by rewrite !big_nil. rewrite !big_cons. case: (P x) => //. by rewrite Im_add IH. Qed.
Lemma Im_rmul (r : R) (z : C) : complex.Im (r%:C * z) = r * complex.Im z. Proof. by case: z => x y /=; rewrite mul0r addr0. Qed.
Lemma Im_conj (z : C) : complex.Im (conjc z) = - complex.Im z. Proof. by case: z. Qed.
Lemma Im_div2 (z : C) : complex.Im (z / 2%:R) = complex.Im z / 2%:R.
Proof. have -> : z / 2%:R = (2%:R^-1)%:C * z by rewrite mulrC fmorphV /= rmorph_nat. by rewrite Im_rmul mulrC. Qed.
Lemma sum_app (f : Z -> R) a b c : (a <= b)%Z -> (b <= c)%Z -> \sum_(j <- arange a c) f j = \sum_(j <- arange a b) f j + \sum_(j <- arange b c) f j.
Proof. move=> H1 H2. by rewrite -(arange_app H1 H2) big_cat. Qed.
Lemma eq_big_InR (T : Type) (l : list T) (f g : T -> R) : (forall x, List.In x l -> f x = g x) -> \sum_(x <- l) f x = \sum_(x <- l) g x.
Proof. elim: l => [|x l IH] H; first by rewrite !big_nil. rewrite !big_cons H; last by left. rewrite IH // => y Hy. apply: H. by right. Qed.
Lemma sum_zero (f : Z -> R) a b : (forall j, (a <= j < b)%Z -> f j = 0) -> \sum_(j <- arange a b) f j = 0.
Proof. move=> H. rewrite (eq_big_InR (g := fun _ => 0)) ?big1 // => j /In_arange. exact: H. Qed.
Lemma sum_shift (f : Z -> R) a b s : \sum_(j <- arange a b) f j = \sum_(j <- arange (a - s) (b - s)) f (j + s)%Z.
Proof.
  have -> : arange a b = List.map (fun j => (s + j)%Z) (arange (a - s) (b - s)) by rewrite arange_map_add; f_equal; lia.
  rewrite big_map. apply: eq_bigr => j _. by rewrite Z.add_comm.
Qed.
Lemma sum_ge0 (f : Z -> R) l : (forall j, 0 <= f j) -> 0 <= \sum_(j <- l) f j. Proof. move=> H. exact: sumr_ge0. Qed.
(** the trapezoidal rule on a uniform grid is the plain sum for functions vanishing at the end points *)
Lemma trapezoid_ends (d : R) (f : Z -> C) W : (0 <= W)%Z -> complex.Im (f (- W)%Z) = 0 -> complex.Im (f W) = 0 ->
  complex.Im (trapezoid (fun j => zr j * d) f (- W) W) = d * \sum_(j <- arange (- W) W) complex.Im (f j).
Proof.
  move=> HW E1 E2. rewrite /trapezoid Im_sum. have -> : \sum_(j <- arange (- W) W) complex.Im ((zr (j + 1) * d - zr j * d)%:C * (f j + f (j + 1)%Z) / 2%:R) = d / 2%:R * (\sum_(j <- arange (- W) W) complex.Im (f j) + \sum_(j <- arange (- W) W) complex.Im (f (j + 1)%Z)).
    rewrite -big_split big_distrr /=. apply: eq_bigr => j _. rewrite Im_div2 Im_rmul Im_add -mulrBl zrS' addrC addKr mul1r. by rewrite mulrAC.
  have <- : \sum_(j <- arange (- W + 1) (W + 1)) complex.Im (f j) = \sum_(j <- arange (- W) W) complex.Im (f (j + 1)%Z).
    rewrite (sum_shift _ _ _ 1). have -> : (- W + 1 - 1 = - W)%Z by lia. by have -> : (W + 1 - 1 = W)%Z by lia.
  have -> : \sum_(j <- arange (- W + 1) (W + 1)) complex.Im (f j) = \sum_(j <- arange (- W) W) complex.Im (f j).
    have A : \sum_(j <- arange (- W) (W + 1)) complex.Im (f j) = \sum_(j <- arange (- W + 1) (W + 1)) complex.Im (f j) by rewrite (@arange_cons (- W) (W + 1)) ?big_cons ?E1 ?add0r //; lia.
    rewrite -A (@sum_app _ (- W) W (W + 1)); try lia. rewrite [X in _ + X](_ : _ = 0) ?addr0 //. rewrite (@arange_cons W) ?arange_empty ?big_cons ?big_nil ?addr0 //; lia.
  set S := BigOp.bigop _ _ _. rewrite -[S + S]mulr2n -[S *+ 2]mulr_natl mulrA divfK ?pnatr_eq0 //.
Qed.
Lemma conductivity_ge0 (nf : R -> R) cpi d (lv : K -> R) G W i : 0 < cpi -> 0 < d -> (0 <= W)%Z -> (0 <= i)%Z ->
  (forall x y, x <= y -> nf y <= nf x) -> (forall k x, 0 <= spectral cpi (G k x)) -> (forall k j, (W <= Z.abs j)%Z -> spectral cpi (G k (zr j * d)) = 0) ->
  0 <= complex.Im (chijj_real nf cpi d (fun k => (lv k)%:C) (fun k => (lv k)%:C) G W (zr i * d)).
Proof.
  move=> Hpi Hd HW Hi Hnf HA Hs. rewrite /chijj_real.
  pose A k j := spectral cpi (G k (zr j * d)).
  have EI : forall k j, complex.Im (G k (zr j * d)) = - cpi * A k j by move=> k j; rewrite /A /spectral mulNr [cpi * _]mulrC -mulrA mulVf ?lt0r_neq0 // mulr1 opprK.
  pose f k j := (nf (zr j * d) * spectral cpi (G k (zr j * d)))%:C * (G k (zr j * d + zr i * d) + conjc (G k (zr j * d - zr i * d))).
  have If : forall k j, complex.Im (f k j) = cpi * (nf (zr j * d) * A k j * A k (j - i)%Z - nf (zr j * d) * A k j * A k (j + i)%Z).
    move=> k j. rewrite /f Im_rmul Im_add Im_conj -mulrDl -mulrBl -zrD -zrB !EI -/(A k j). move: (nf _) (A k j) (A k (j + i)%Z) (A k (j - i)%Z) => n x y z.
    by rewrite !mulNr opprK [- _ + _]addrC -mulrBr mulrCA -mulrBr.
  have Z : forall k j, (W <= Z.abs j)%Z -> A k j = 0 by move=> k j; exact: Hs.
  have key : forall k, complex.Im (trapezoid (fun j => zr j * d) (f k) (- W) W) <= 0.
    move=> k. rewrite trapezoid_ends //; try by rewrite If Z ?mulr0 ?mul0r ?subrr ?mulr0 //; lia.
    apply: mulr_ge0_le0; first exact: ltW. rewrite (eq_bigr _ (fun j _ => If k j)) -big_distrr. apply: mulr_ge0_le0; first exact: ltW. rewrite big_split /= sumrN.
    have -> : \sum_(j <- arange (- W) W) nf (zr j * d) * A k j * A k (j - i)%Z = \sum_(j <- arange (- W) W) nf (zr (j + i) * d) * A k (j + i)%Z * A k j.
      rewrite (sum_shift _ _ _ i). pose g j := nf (zr (j + i) * d) * A k (j + i)%Z * A k j.
      rewrite (eq_bigr g); last by move=> j _; rewrite /g; have -> : (j + i - i = j)%Z by lia.
      have E1 := @sum_app g (- W - i) (W - i) W ltac:(lia) ltac:(lia). have E2 := @sum_app g (- W - i) (- W) W ltac:(lia) ltac:(lia).
      rewrite (@sum_zero g (W - i)) ?addr0 in E1; last by move=> j Hj; rewrite /g [A k (j + i)%Z]Z ?mulr0 ?mul0r //; lia.
      rewrite (@sum_zero g (- W - i) (- W)) ?add0r in E2; last by move=> j Hj; rewrite /g [A k j]Z ?mulr0 //; lia. by rewrite -E1 E2.
    rewrite -sumrB -oppr_ge0 -sumrN. apply: sum_ge0 => j. rewrite opprB.
    have -> : nf (zr j * d) * A k j * A k (j + i)%Z - nf (zr (j + i) * d) * A k (j + i)%Z * A k j = (nf (zr j * d) - nf (zr (j + i) * d)) * (A k j * A k (j + i)%Z) by move: (nf _) (nf _) (A k j) (A k (j + i)%Z) => n1 n2 x y; rewrite mulrBl !mulrA [_ * y * x]mulrAC.
    rewrite mulr_ge0 //; last by rewrite mulr_ge0 // HA. rewrite subr_ge0. apply: Hnf. apply: mulz_le => //. lia.
  have -> : - 2%:R = (- 2%:R : R)%:C :> C by rewrite rmorphN rmorph_nat.
  rewrite Im_rmul mulNr oppr_ge0. apply: mulr_ge0_le0; first exact: ler0n.
  have -> : (#|{: K}|%:R : C)^-1 = ((#|{: K}|%:R)^-1 : R)%:C by rewrite fmorphV rmorph_nat.
  rewrite mulrC Im_rmul. apply: mulr_ge0_le0; first by rewrite invr_ge0 ler0n.
  rewrite Im_sum. rewrite -oppr_ge0 -sumrN. apply: sumr_ge0 => k _. rewrite oppr_ge0 -rmorphM Im_rmul. apply: mulr_ge0_le0; last exact: key. by rewrite -expr2 sqr_ge0.
Qed.
End Positive.
